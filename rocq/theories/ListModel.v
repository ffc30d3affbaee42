(** Model of sources/list.hpp. [T] is the element type, [eqb] its [operator==].
    A list is the sequence of elements of its [std::vector]. *)
From Coq Require Import ZArith List Bool Ascii.
From Verif Require Import Outcome.
Import ListNotations.
Open Scope Z_scope.

(** ** The parts of std::vector and <algorithm> used *)

Definition len {T} (v : list T) : Z := Z.of_nat (length v).

(** [v[k]] *)
Definition vat {T} (v : list T) (k : Z) : outcome T :=
  if k <? 0 then UB OutOfBounds
  else match nth_error v (Z.to_nat k) with Some x => Ok x | None => UB OutOfBounds end.

(** [v[k] = x] *)
Definition vput {T} (v : list T) (k : Z) (x : T) : outcome (list T) :=
  if (k <? 0) || (len v <=? k) then UB OutOfBounds
  else Ok (firstn (Z.to_nat k) v ++ x :: skipn (S (Z.to_nat k)) v).

(** [v.insert(v.begin() + k, x)]. The standard requires it to work when [x] refers into [v]. *)
Definition vinsert {T} (v : list T) (k : Z) (x : T) : outcome (list T) :=
  if (k <? 0) || (len v <? k) then UB InvalidRange
  else Ok (firstn (Z.to_nat k) v ++ x :: skipn (Z.to_nat k) v).

(** [v.erase(v.begin() + a, v.begin() + b)] *)
Definition verase {T} (v : list T) (a b : Z) : outcome (list T) :=
  if (a <? 0) || (b <? a) || (len v <? b) then UB InvalidRange
  else Ok (firstn (Z.to_nat a) v ++ skipn (Z.to_nat b) v).

(** [std::find] on a whole range: distance to the match, or to the end. *)
Fixpoint std_find {T} (eqb : T -> T -> bool) (v : list T) (x : T) : nat :=
  match v with
  | [] => O
  | y :: v' => if eqb y x then O else S (std_find eqb v' x)
  end.

(** [std::count] *)
Fixpoint std_count {T} (eqb : T -> T -> bool) (v : list T) (x : T) : Z :=
  match v with
  | [] => 0
  | y :: v' => if eqb y x then 1 + std_count eqb v' x else std_count eqb v' x
  end.

(** [std::copy(src.begin(), src.end(), v.begin() + k)] *)
Definition std_copy {T} (src v : list T) (k : Z) : outcome (list T) :=
  if (k <? 0) || (len v <? k + len src) then UB OutOfBounds
  else Ok (firstn (Z.to_nat k) v ++ src ++ skipn (Z.to_nat (k + len src)) v).

(** [std::rotate(v.begin(), v.begin() + k, v.end())] *)
Definition std_rotate {T} (v : list T) (k : Z) : outcome (list T) :=
  if (k <? 0) || (len v <? k) then UB InvalidRange
  else Ok (skipn (Z.to_nat k) v ++ firstn (Z.to_nat k) v).

(** [std::stable_sort], as insertion sort: every stable sort gives the same result
    (C56_stable_sort_unique). *)
Fixpoint sort_insert {T} (lt : T -> T -> bool) (x : T) (v : list T) : list T :=
  match v with
  | [] => [x]
  | y :: v' => if lt y x then y :: sort_insert lt x v' else x :: v
  end.
Fixpoint std_stable_sort {T} (lt : T -> T -> bool) (v : list T) : list T :=
  match v with
  | [] => []
  | x :: v' => sort_insert lt x (std_stable_sort lt v')
  end.

(** An argument of type [const T&]: another object, or element [k] of the list itself. *)
Inductive eref (T : Type) := Val (x : T) | Elem (k : Z).
Arguments Val {T} x.
Arguments Elem {T} k.
Definition deref {T} (v : list T) (r : eref T) : outcome T :=
  match r with Val x => Ok x | Elem k => vat v k end.

(** [std::remove(v.begin(), v.end(), r)]: the loop that compares each element with the
    referenced object as it is now and moves kept elements down (moving leaves the source
    value in place, as for every type whose move is a copy). Returns the vector and the new end. *)
Fixpoint std_remove_loop {T} (eqb : T -> T -> bool) (r : eref T) (n : nat) (first result : Z) (v : list T)
  : outcome (list T * Z) :=
  match n with
  | O => Ok (v, result)
  | S n' =>
      y <- vat v first ;; x <- deref v r ;;
      if eqb y x then std_remove_loop eqb r n' (first + 1) result v
      else v' <- vput v result y ;; std_remove_loop eqb r n' (first + 1) (result + 1) v'
  end.
Definition std_remove {T} (eqb : T -> T -> bool) (r : eref T) (v : list T) : outcome (list T * Z) :=
  std_remove_loop eqb r (length v) 0 0 v.

(** [std::copy_if(v.begin(), v.end(), v.begin(), p)]: the in-place loop. *)
Fixpoint std_copy_if_loop {T} (p : T -> bool) (n : nat) (first result : Z) (v : list T) : outcome (list T * Z) :=
  match n with
  | O => Ok (v, result)
  | S n' =>
      y <- vat v first ;;
      if p y then v' <- vput v result y ;; std_copy_if_loop p n' (first + 1) (result + 1) v'
      else std_copy_if_loop p n' (first + 1) result v
  end.

(** ** List *)

(** list.hpp:109-112. [size_t] narrowed to int. *)
Definition size {T} (v : list T) : Z := wrap32 (len v).
(** list.hpp:115-118 *)
Definition list_is_empty {T} (v : list T) : bool := match v with [] => true | _ => false end.

(** [index >= 0 ? index : index + size()] *)
Definition from_end {T} (v : list T) (i : Z) : outcome Z :=
  if 0 <=? i then Ok i else chk32 (i + size v).

(** list.hpp:90-102 *)
Definition list_at {T} (v : list T) (i : Z) : outcome T :=
  lo <- chk32 (- size v) ;; check_bounds i lo (size v) ;;; k <- from_end v i ;; vat v k.
(** [list[i] = x] through the returned reference *)
Definition list_set {T} (i : Z) (x : T) : M (list T) unit := fun v =>
  match (lo <- chk32 (- size v) ;; check_bounds i lo (size v) ;;; k <- from_end v i ;; vput v k x) with
  | Ok v' => (Ok tt, v')
  | Throw e => (Throw e, v)
  | UB u => (UB u, v)
  | OutOfFuel => (OutOfFuel, v)
  end.

(** list.hpp:121-124: offset of the returned iterator *)
Definition list_find {T} (eqb : T -> T -> bool) (v : list T) (x : T) : nat := std_find eqb v x.

(** list.hpp:127-132 *)
Definition list_index {T} (eqb : T -> T -> bool) (v : list T) (x : T) (start stop : Z) : outcome Z :=
  let stop := if size v <? stop then size v else stop in
  if (start <? 0) || (stop <? start) || (len v <? stop) then UB InvalidRange
  else
    let it := start + Z.of_nat (std_find eqb (firstn (Z.to_nat (stop - start)) (skipn (Z.to_nat start) v)) x) in
    Ok (if it =? stop then -1 else wrap32 it).
(** list.hpp:135-138 *)
Definition list_contains {T} (eqb : T -> T -> bool) (v : list T) (x : T) (start stop : Z) : outcome bool :=
  i <- list_index eqb v x start stop ;; Ok (negb (i =? -1)).
(** list.hpp:141-144 *)
Definition list_count {T} (eqb : T -> T -> bool) (v : list T) (x : T) : Z := wrap32 (std_count eqb v x).

(** A mutator that computes the new vector, or fails without having touched it. *)
Definition update {T} (f : list T -> outcome (list T)) : M (list T) unit := fun v =>
  match f v with
  | Ok v' => (Ok tt, v')
  | Throw e => (Throw e, v)
  | UB u => (UB u, v)
  | OutOfFuel => (OutOfFuel, v)
  end.

(** list.hpp:152-159 *)
Definition list_insert {T} (i : Z) (x : T) : M (list T) unit := update (fun v =>
  check_full (size v) INT_MAX ;;; lo <- chk32 (- size v) ;; hi <- chk32 (size v + 1) ;;
  check_bounds i lo hi ;;; k <- from_end v i ;; vinsert v k x).

(** list.hpp:163-173 *)
Definition list_remove {T} (i : Z) : M (list T) T := fun v =>
  match (check_empty (size v) ;;; lo <- chk32 (- size v) ;; check_bounds i lo (size v) ;;;
         k <- from_end v i ;; x <- vat v k ;; v' <- verase v k (k + 1) ;; Ok (x, v')) with
  | Ok (x, v') => (Ok x, v')
  | Throw e => (Throw e, v)
  | UB u => (UB u, v)
  | OutOfFuel => (OutOfFuel, v)
  end.

(** list.hpp:176-183 *)
Definition list_append {T} (x : T) : M (list T) unit := update (fun v =>
  check_full (size v) INT_MAX ;;; Ok (v ++ [x])).

(** list.hpp:186-193. [w] is the argument, [self] tells that it is the list itself, whose
    iterators [vector::insert] does not accept. *)
Definition list_append_list {T} (w : list T) (self : bool) : M (list T) unit := update (fun v =>
  check_full (Z.quot (size v) 2 + Z.quot (size w) 2) (Z.quot INT_MAX 2) ;;;
  if self then UB SelfRange else Ok (v ++ w)).

(** list.hpp:196-204 *)
Definition list_subtract {T} (eqb : T -> T -> bool) (x : T) : M (list T) unit := update (fun v =>
  let it := std_find eqb v x in
  if Nat.eqb it (length v) then Ok v else verase v (Z.of_nat it) (Z.of_nat it + 1)).

(** list.hpp:393-396: the copying loop of [operator*] *)
Fixpoint times_loop {T} (v : list T) (n : nat) (part : Z) (buffer : list T) : outcome (list T) :=
  match n with
  | O => Ok buffer
  | S n' => o <- chk32 (size v * part) ;; b <- std_copy v buffer o ;; times_loop v n' (part + 1) b
  end.
(** list.hpp:383-399. [d] is the value-initialised [T()]. *)
Definition list_times {T} (d : T) (v : list T) (times : Z) : outcome (list T) :=
  if times <? 0 then Throw NegativeTimes
  else
    n <- chk32 (size v * times) ;; check_full n INT_MAX ;;;
    (* a negative count becomes a size_t above max_size() *)
    (if n <? 0 then Throw StdLengthError else times_loop v (Z.to_nat times) 0 (repeat d (Z.to_nat n))).
(** list.hpp:207-210 *)
Definition list_times_assign {T} (d : T) (times : Z) : M (list T) unit := update (fun v => list_times d v times).

(** list.hpp:213-218 *)
Definition list_divide {T} (eqb : T -> T -> bool) (r : eref T) : M (list T) unit := update (fun v =>
  ve <- std_remove eqb r v ;; verase (fst ve) (snd ve) (len (fst ve))).

(** list.hpp:237-254 *)
Definition list_shl {T} (n : Z) : M (list T) unit := update (fun v =>
  if (size v <=? 1) || (n =? 0) then Ok v
  else
    let n := Z.rem n (size v) in
    n <- (if n <? 0 then chk32 (n + size v) else Ok n) ;; std_rotate v n).
(** list.hpp:221-234 *)
Definition list_shr {T} (n : Z) : M (list T) unit := fun v =>
  if (size v <=? 1) || (n =? 0) then (Ok tt, v)
  else match (if n <? 0 then chk32 (- n) else chk32 (size v - n)) with
       | Ok m => list_shl m v
       | Throw e => (Throw e, v)
       | UB u => (UB u, v)
       | OutOfFuel => (OutOfFuel, v)
       end.

(** list.hpp:257-262 *)
Definition list_reverse {T} : M (list T) unit := update (fun v => Ok (rev v)).

(** list.hpp:266-279 *)
Fixpoint uniq_loop {T} (eqb : T -> T -> bool) (v buffer : list T) : list T :=
  match v with
  | [] => buffer
  | x :: v' => if Nat.eqb (std_find eqb buffer x) (length buffer) then uniq_loop eqb v' (buffer ++ [x])
               else uniq_loop eqb v' buffer
  end.
Definition list_uniquify {T} (eqb : T -> T -> bool) : M (list T) unit := update (fun v => Ok (uniq_loop eqb v [])).

(** list.hpp:283-289 *)
Definition list_sort {T} (lt : T -> T -> bool) : M (list T) unit := update (fun v => Ok (std_stable_sort lt v)).

(** list.hpp:292-300 *)
Definition list_erase {T} (start stop : Z) : M (list T) unit := update (fun v =>
  hi <- chk32 (size v + 1) ;; check_bounds start 0 hi ;;; check_bounds stop 0 hi ;;; verase v start stop).

(** list.hpp:304-309. [f] is the effect of the action on its state and on the element. *)
Fixpoint for_each {S T} (f : S -> T -> S * T) (s : S) (v : list T) : S * list T :=
  match v with
  | [] => (s, [])
  | x :: v' => let (s1, y) := f s x in let (s2, w) := for_each f s1 v' in (s2, y :: w)
  end.
Definition list_map {S T} (f : S -> T -> S * T) (s : S) : M (list T) S := fun v =>
  let (s', v') := for_each f s v in (Ok s', v').

(** list.hpp:313-319. [std::copy_if] requires disjoint ranges: under [strict] the overlapping
    call is undefined, otherwise the in-place loop runs. *)
Definition list_filter {T} (strict : bool) (p : T -> bool) : M (list T) unit := update (fun v =>
  if strict && negb (list_is_empty v) then UB Overlap
  else ve <- std_copy_if_loop p (length v) 0 0 v ;; verase (fst ve) (snd ve) (len (fst ve))).

(** list.hpp:323-326. The range [w] is not part of the list. *)
Definition list_extend {T} (w : list T) : M (list T) unit := update (fun v => Ok (v ++ w)).
(** list.hpp:329-332 *)
Definition list_clear {T} : M (list T) unit := update (fun _ => Ok []).

(** list.hpp:356-359: loop of [slice] *)
Fixpoint slice_loop {T} (v : list T) (stop step : Z) (fuel : nat) (i : Z) (buffer : list T) : outcome (list T) :=
  match fuel with
  | O => OutOfFuel
  | S f =>
      if (if 0 <? step then i <? stop else stop <? i) then
        x <- vat v i ;; i' <- chk32 (i + step) ;; slice_loop v stop step f i' (buffer ++ [x])
      else Ok buffer
  end.
(** list.hpp:340-362. The loop runs at most once per element, so the fuel is never exhausted. *)
Definition list_slice {T} (v : list T) (start stop step : Z) : outcome (list T) :=
  if step =? 0 then Throw SliceStepZero
  else
    lo <- chk32 (- size v) ;; check_bounds start lo (size v) ;;;
    lo' <- chk32 (lo - 1) ;; hi' <- chk32 (size v + 1) ;; check_bounds stop lo' hi' ;;;
    start <- (if start <? 0 then chk32 (start + size v) else Ok start) ;;
    stop <- (if stop <? 0 then chk32 (stop + size v) else Ok stop) ;;
    slice_loop v stop step (S (length v)) start [].

(** Result of a mutator applied to a copy. *)
Definition on_copy {T} (m : M (list T) unit) (v : list T) : outcome (list T) :=
  match m v with
  | (Ok _, v') => Ok v'
  | (Throw e, _) => Throw e
  | (UB u, _) => UB u
  | (OutOfFuel, _) => OutOfFuel
  end.
(** list.hpp:365-380, 402-405. The argument never refers into the copy. *)
Definition list_plus {T} (v : list T) (x : T) : outcome (list T) := on_copy (list_append x) v.
Definition list_plus_list {T} (v w : list T) : outcome (list T) := on_copy (list_append_list w false) v.
Definition list_minus {T} (eqb : T -> T -> bool) (v : list T) (x : T) : outcome (list T) := on_copy (list_subtract eqb x) v.
Definition list_over {T} (eqb : T -> T -> bool) (v : list T) (x : T) : outcome (list T) := on_copy (list_divide eqb (Val x)) v.

(** list.hpp:54: the defaulted [<=>] is that of std::vector: lexicographic, by the element
    order [cmp]; the defaulted [==] compares the sizes, then the elements. *)
Fixpoint list_cmp {T} (cmp : T -> T -> comparison) (v w : list T) : comparison :=
  match v, w with
  | [], [] => Eq
  | [], _ :: _ => Lt
  | _ :: _, [] => Gt
  | x :: v', y :: w' => match cmp x y with Eq => list_cmp cmp v' w' | c => c end
  end.
Fixpoint all2 {T} (eqb : T -> T -> bool) (v w : list T) : bool :=
  match v, w with
  | x :: v', y :: w' => eqb x y && all2 eqb v' w'
  | _, _ => true
  end.
Definition list_eqb {T} (eqb : T -> T -> bool) (v w : list T) : bool :=
  Nat.eqb (length v) (length w) && all2 eqb v w.

(** utility.hpp:76-100. [show] is what [os << element] writes. *)
Fixpoint print_loop {T} (show : T -> list ascii) (it : T) (rest : list T) (close : ascii) (os : list ascii) : list ascii :=
  let os := os ++ show it in
  match rest with
  | [] => os ++ [close]
  | x :: rest' => print_loop show x rest' close (os ++ [","%char; " "%char])
  end.
Definition print_range {T} (show : T -> list ascii) (v : list T) (open close : ascii) : list ascii :=
  match v with
  | [] => [open; close]
  | x :: rest => print_loop show x rest close [open]
  end.
(** list.hpp:412-415 *)
Definition list_print {T} (show : T -> list ascii) (v : list T) : list ascii := print_range show v "["%char "]"%char.
