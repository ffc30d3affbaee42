(** Model of sources/set.hpp. A set is the sequence of elements in iteration order of its
    [std::set]; [lt] is the element type's [operator<], [eqb] its [operator==].
    [size], [list_eqb] and [print_range] are those of ListModel. *)
From Coq Require Import ZArith List Bool Ascii.
From Verif Require Import Outcome ListModel.
Import ListNotations.
Open Scope Z_scope.

Section Set_.
Context {T : Type} (lt : T -> T -> bool).

(** ** std::set and the standard algorithms on sorted ranges *)

(** [std::set::lower_bound]: what precedes the first element not less than [x], and the rest. *)
Fixpoint lower_bound (x : T) (l : list T) : list T * list T :=
  match l with
  | [] => ([], [])
  | y :: l' => if lt y x then let (a, b) := lower_bound x l' in (y :: a, b) else ([], l)
  end.
(** [std::set::find(x) != end()] *)
Definition std_contains (x : T) (l : list T) : bool :=
  match snd (lower_bound x l) with [] => false | y :: _ => negb (lt x y) end.
(** [std::set::insert(x)]: whether inserted, and the new contents. *)
Definition std_insert (x : T) (l : list T) : bool * list T :=
  let (a, b) := lower_bound x l in
  match b with
  | [] => (true, a ++ [x])
  | y :: _ => if lt x y then (true, a ++ x :: b) else (false, l)
  end.
(** [std::set::erase(x)]: the number of elements erased, and the new contents. *)
Definition std_erase (x : T) (l : list T) : Z * list T :=
  let (a, b) := lower_bound x l in
  match b with
  | [] => (0, l)
  | y :: b' => if lt x y then (0, l) else (1, a ++ b')
  end.
(** [std::set::insert(first, last)], also the constructors from a range. *)
Definition std_insert_range (xs l : list T) : list T := fold_left (fun s x => snd (std_insert x s)) xs l.

(** [std::includes(l, m)]: is the second range included in the first? *)
Fixpoint std_includes (l : list T) : list T -> bool :=
  fix inner (m : list T) : bool :=
    match l, m with
    | _, [] => true
    | [], _ :: _ => false
    | x :: l', y :: m' => if lt y x then false else if lt x y then std_includes l' m else std_includes l' m'
    end.
(** What [std::set_intersection], [set_union], [set_difference] and
    [set_symmetric_difference] write to their output iterator. *)
Fixpoint std_intersection (l : list T) : list T -> list T :=
  fix inner (m : list T) : list T :=
    match l, m with
    | [], _ | _, [] => []
    | x :: l', y :: m' => if lt x y then std_intersection l' m else if lt y x then inner m' else x :: std_intersection l' m'
    end.
Fixpoint std_union (l : list T) : list T -> list T :=
  fix inner (m : list T) : list T :=
    match l, m with
    | [], _ => m
    | _, [] => l
    | x :: l', y :: m' => if lt x y then x :: std_union l' m else if lt y x then y :: inner m' else x :: std_union l' m'
    end.
Fixpoint std_difference (l : list T) : list T -> list T :=
  fix inner (m : list T) : list T :=
    match l, m with
    | [], _ => []
    | _, [] => l
    | x :: l', y :: m' => if lt x y then x :: std_difference l' m else if lt y x then inner m' else std_difference l' m'
    end.
Fixpoint std_symmetric_difference (l : list T) : list T -> list T :=
  fix inner (m : list T) : list T :=
    match l, m with
    | [], _ => m
    | _, [] => l
    | x :: l', y :: m' =>
        if lt x y then x :: std_symmetric_difference l' m else if lt y x then y :: inner m' else std_symmetric_difference l' m'
    end.

(** ** class Set *)

(** set.hpp:33-43 *)
Definition set_of (xs : list T) : list T := std_insert_range xs [].
(** set.hpp:65-68 *)
Definition set_le (a b : list T) : bool := std_includes b a.
(** set.hpp:59-62 *)
Definition set_lt (a b : list T) : bool := negb (size a =? size b) && set_le a b.
(** set.hpp:71-74 *)
Definition set_gt (a b : list T) : bool := set_lt b a.
(** set.hpp:77-80 *)
Definition set_ge (a b : list T) : bool := set_le b a.
(** set.hpp:121-124 *)
Definition set_is_empty (a : list T) : bool := match a with [] => true | _ => false end.
(** set.hpp:127-136 *)
Definition set_contains (a : list T) (x : T) : bool := std_contains x a.
(** set.hpp:139-144 *)
Definition set_min (a : list T) : outcome T :=
  check_empty (size a) ;;; match a with x :: _ => Ok x | [] => UB BadDeref end.
(** set.hpp:147-152 *)
Definition set_max (a : list T) : outcome T :=
  check_empty (size a) ;;; match rev a with x :: _ => Ok x | [] => UB BadDeref end.
(** set.hpp:159-164 *)
Definition set_add (x : T) : M (list T) bool := fun a =>
  match check_full (size a) INT_MAX with
  | Ok _ => let (b, a') := std_insert x a in (Ok b, a')
  | Throw e => (Throw e, a)
  | UB u => (UB u, a)
  | OutOfFuel => (OutOfFuel, a)
  end.
(** set.hpp:167-170 *)
Definition set_remove (x : T) : M (list T) bool := fun a =>
  let (n, a') := std_erase x a in (Ok (n =? 1), a').
(** set.hpp:173-178 *)
Definition set_pop : M (list T) T := fun a =>
  match check_empty (size a) with
  | Ok _ => match a with x :: a' => (Ok x, a') | [] => (UB BadDeref, a) end
  | Throw e => (Throw e, a)
  | UB u => (UB u, a)
  | OutOfFuel => (OutOfFuel, a)
  end.
(** set.hpp:209-213. The range [xs] is not part of the set. *)
Definition set_extend (xs : list T) : M (list T) unit := update (fun a => Ok (std_insert_range xs a)).
(** set.hpp:216-219 *)
Definition set_clear : M (list T) unit := update (fun _ => Ok []).
(** set.hpp:227-232. The output iterator inserts into an empty set. *)
Definition set_and (a b : list T) : list T := std_insert_range (std_intersection a b) [].
(** set.hpp:236-241 *)
Definition set_or (a b : list T) : list T := std_insert_range (std_union a b) [].
(** set.hpp:245-250 *)
Definition set_sub (a b : list T) : list T := std_insert_range (std_difference a b) [].
(** set.hpp:254-259 *)
Definition set_xor (a b : list T) : list T := std_insert_range (std_symmetric_difference a b) [].
(** set.hpp:182-206: the result is computed in a temporary, so [a &= a] is no special case. *)
Definition set_and_assign (b : list T) : M (list T) unit := update (fun a => Ok (set_and a b)).
Definition set_or_assign (b : list T) : M (list T) unit := update (fun a => Ok (set_or a b)).
Definition set_sub_assign (b : list T) : M (list T) unit := update (fun a => Ok (set_sub a b)).
Definition set_xor_assign (b : list T) : M (list T) unit := update (fun a => Ok (set_xor a b)).
(** set.hpp:56: defaulted [==] of std::set *)
Definition set_eqb (eqb : T -> T -> bool) (a b : list T) : bool := list_eqb eqb a b.
(** set.hpp:266-269 *)
Definition set_print (show : T -> list ascii) (a : list T) : list ascii := print_range show a "{"%char "}"%char.
End Set_.

(** ** Client programs, each statement in its own [try]/[catch] *)
Inductive tstmt (T : Type) :=
| TInit (v : nat) (xs : list T)      (* v = Set{x, ...}; *)
| TCopy (v w : nat)                  (* v = w; *)
| TMove (v w : nat)                  (* v = std::move(w); *)
| TAdd (v : nat) (x : T)             (* emit(v.add(x)); *)
| TRemove (v : nat) (x : T)          (* emit(v.remove(x)); *)
| TPop (v : nat)                     (* emit(v.pop()); *)
| TExtend (v : nat) (xs : list T)    (* if (xs.size() <= INT_MAX - v.size()) v.extend(xs.begin(), xs.end()); *)
| TExtendSet (v w : nat)             (* if (w.size() <= INT_MAX - v.size()) v.extend(w.begin(), w.end()); *)
| TClear (v : nat)                   (* v.clear(); *)
| TAnd (u v w : nat)                 (* u = v & w; *)
| TOr (u v w : nat)                  (* if (w.size() <= INT_MAX - v.size()) u = v | w; *)
| TSub (u v w : nat)                 (* u = v - w; *)
| TXor (u v w : nat)                 (* if (w.size() <= INT_MAX - v.size()) u = v ^ w; *)
| TAndA (v w : nat)                  (* v &= w; *)
| TOrA (v w : nat)                   (* if (w.size() <= INT_MAX - v.size()) v |= w; *)
| TSubA (v w : nat)                  (* v -= w; *)
| TXorA (v w : nat)                  (* if (w.size() <= INT_MAX - v.size()) v ^= w; *)
| TContains (v : nat) (x : T)        (* emit(v.contains(x)); *)
| TMin (v : nat)                     (* emit(v.min()); *)
| TMax (v : nat)                     (* emit(v.max()); *)
| TSize (v : nat)                    (* emit(v.size()); *)
| TIsEmpty (v : nat)                 (* emit(v.is_empty()); *)
| TEqual (v w : nat)                 (* emit(v == w); *)
| TLess (v w : nat)                  (* emit(v < w); *)
| TLessEq (v w : nat)                (* emit(v <= w); *)
| TGreater (v w : nat)               (* emit(v > w); *)
| TGreaterEq (v w : nat)             (* emit(v >= w); *)
| TIterate (v : nat)                 (* for (x : v) emit(x); *)
| TPrint (v : nat).                  (* std::cout << v; *)
Arguments TInit {T}. Arguments TCopy {T}. Arguments TMove {T}. Arguments TAdd {T}. Arguments TRemove {T}. Arguments TPop {T}.
Arguments TExtend {T}. Arguments TExtendSet {T}. Arguments TClear {T}. Arguments TAnd {T}. Arguments TOr {T}. Arguments TSub {T}.
Arguments TXor {T}. Arguments TAndA {T}. Arguments TOrA {T}. Arguments TSubA {T}. Arguments TXorA {T}. Arguments TContains {T}.
Arguments TMin {T}. Arguments TMax {T}. Arguments TSize {T}. Arguments TIsEmpty {T}. Arguments TEqual {T}. Arguments TLess {T}.
Arguments TLessEq {T}. Arguments TGreater {T}. Arguments TGreaterEq {T}. Arguments TIterate {T}. Arguments TPrint {T}.

(** What a client observes. *)
Inductive tevent (T : Type) :=
| TThrow (e : exn) | TElem (x : T) | TBool (b : bool) | TNum (z : Z) | TText (s : list ascii).
Arguments TThrow {T}. Arguments TElem {T}. Arguments TBool {T}. Arguments TNum {T}. Arguments TText {T}.

Definition tstore T := nat -> list T.
Definition tset {T} (s : tstore T) (v : nat) (x : list T) : tstore T := fun w => if Nat.eqb w v then x else s w.

Section Run.
Context {T : Type} (lt eqb : T -> T -> bool) (show : T -> list ascii).

Definition tcall {A} (s : tstore T) (v : nat) (m : M (list T) A) (out : A -> list (tevent T)) : outcome (tstore T * list (tevent T)) :=
  match m (s v) with
  | (Ok a, v') => Ok (tset s v v', out a)
  | (Throw e, v') => Ok (tset s v v', [TThrow e])
  | (UB u, _) => UB u
  | (OutOfFuel, _) => OutOfFuel
  end.
Definition tsilent (_ : unit) : list (tevent T) := [].
Definition temit {A} (s : tstore T) (o : outcome A) (ev : A -> tevent T) : outcome (tstore T * list (tevent T)) :=
  match o with
  | Ok r => Ok (s, [ev r])
  | Throw e => Ok (s, [TThrow e])
  | UB u => UB u
  | OutOfFuel => OutOfFuel
  end.
(** [if (n <= INT_MAX - a.size()) ...] *)
Definition tguard (s : tstore T) (n : Z) (a : list T) (k : outcome (tstore T * list (tevent T))) : outcome (tstore T * list (tevent T)) :=
  if n <=? INT_MAX - size a then k else Ok (s, []).

Definition tstep (c : tstmt T) (s : tstore T) : outcome (tstore T * list (tevent T)) :=
  match c with
  | TInit v xs => Ok (tset s v (set_of lt xs), [])
  | TCopy v w => Ok (tset s v (s w), [])
  | TMove v w => if Nat.eqb v w then UB SelfRange else Ok (tset (tset s v (s w)) w [], [])
  | TAdd v x => tcall s v (set_add lt x) (fun b => [TBool b])
  | TRemove v x => tcall s v (set_remove lt x) (fun b => [TBool b])
  | TPop v => tcall s v set_pop (fun x => [TElem x])
  | TExtend v xs => tguard s (len xs) (s v) (tcall s v (set_extend lt xs) tsilent)
  | TExtendSet v w =>
      tguard s (size (s w)) (s v) (if Nat.eqb v w then UB SelfRange else tcall s v (set_extend lt (s w)) tsilent)
  | TClear v => tcall s v set_clear tsilent
  | TAnd u v w => Ok (tset s u (set_and lt (s v) (s w)), [])
  | TOr u v w => tguard s (size (s w)) (s v) (Ok (tset s u (set_or lt (s v) (s w)), []))
  | TSub u v w => Ok (tset s u (set_sub lt (s v) (s w)), [])
  | TXor u v w => tguard s (size (s w)) (s v) (Ok (tset s u (set_xor lt (s v) (s w)), []))
  | TAndA v w => tcall s v (set_and_assign lt (s w)) tsilent
  | TOrA v w => tguard s (size (s w)) (s v) (tcall s v (set_or_assign lt (s w)) tsilent)
  | TSubA v w => tcall s v (set_sub_assign lt (s w)) tsilent
  | TXorA v w => tguard s (size (s w)) (s v) (tcall s v (set_xor_assign lt (s w)) tsilent)
  | TContains v x => temit s (Ok (set_contains lt (s v) x)) TBool
  | TMin v => temit s (set_min (s v)) TElem
  | TMax v => temit s (set_max (s v)) TElem
  | TSize v => temit s (Ok (size (s v))) TNum
  | TIsEmpty v => temit s (Ok (set_is_empty (s v))) TBool
  | TEqual v w => temit s (Ok (set_eqb eqb (s v) (s w))) TBool
  | TLess v w => temit s (Ok (set_lt lt (s v) (s w))) TBool
  | TLessEq v w => temit s (Ok (set_le lt (s v) (s w))) TBool
  | TGreater v w => temit s (Ok (set_gt lt (s v) (s w))) TBool
  | TGreaterEq v w => temit s (Ok (set_ge lt (s v) (s w))) TBool
  | TIterate v => Ok (s, map TElem (s v))
  | TPrint v => temit s (Ok (set_print show (s v))) TText
  end.

Fixpoint trun (prog : list (tstmt T)) (s : tstore T) : outcome (tstore T * list (tevent T)) :=
  match prog with
  | [] => Ok (s, [])
  | c :: rest => se <- tstep c s ;; se' <- trun rest (fst se) ;; Ok (fst se', snd se ++ snd se')
  end.
End Run.
