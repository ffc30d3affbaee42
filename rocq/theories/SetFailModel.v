(** sources/set.hpp when allocations and copies of elements may throw (see FailModel): which events each member causes, and what
    a member that fails leaves behind. The values are those of SetModel; comparing elements does not throw here. *)
From Coq Require Import ZArith List Bool Ascii.
From Verif Require Import Outcome ListModel SetModel FailModel FailRunModel.
Import ListNotations.
Open Scope Z_scope.

Section SetFail.
Context {T : Type}.
(** [cost] is the number of events of copying one element: 1, or 2 for a pair. *)
Variables (ok : nat -> bool) (cost : nat) (lt eqb : T -> T -> bool) (show : T -> list ascii).

Notation sm := (xm (list T)).

(** [std::set::insert(x)]: if there is no such element a node is allocated and [x] copied into it; then the node is linked. *)
Definition fs_insert (x : T) : sm bool :=
  a <~ xget ;; let (b, a') := std_insert lt x a in
  if b then xevent ok ;~ xevents ok cost ;~ xput a' ;~ xret true else xret false.
(** [std::set::insert(first, last)], the constructors from a range (set.hpp:33-43), and an [std::insert_iterator] written to *)
Fixpoint fs_insert_range (xs : list T) : sm unit :=
  match xs with
  | [] => xret tt
  | x :: xs' => fs_insert x ;~ fs_insert_range xs'
  end.
Definition fs_of {St} (xs : list T) : xm St (list T) := r <~ xlocal [] (fs_insert_range xs) ;; xret (snd r).

(** The implicit copy assignment from another Set: [_Rb_tree::operator=] keeps the old nodes aside, which leaves the tree empty, then
    clones the other tree node by node; a node kept aside is reused, otherwise one is allocated. If a copy throws the clones made so
    far are destroyed. *)
Fixpoint fs_clone (w : list T) (aside : nat) : sm unit :=
  match w, aside with
  | [], _ => xret tt
  | _ :: w', S n => xevents ok cost ;~ fs_clone w' n
  | _ :: w', O => xevent ok ;~ xevents ok cost ;~ fs_clone w' 0
  end.
Definition fs_assign (w : list T) : sm unit := a <~ xget ;; xput [] ;~ fs_clone w (length a) ;~ xput w.

(** set.hpp:159-164 *)
Definition fs_add (x : T) : sm bool := a <~ xget ;; xlift (check_full (size a) INT_MAX) ;~ fs_insert x.
(** set.hpp:173-178: the node is taken out of the tree, then its element is copied into the result; the node handle releases it. *)
Definition fs_pop : sm T :=
  a <~ xget ;; xlift (check_empty (size a)) ;~
  match a with
  | x :: a' => xput a' ;~ xevents ok cost ;~ xret x
  | [] => xlift (UB BadDeref)
  end.
(** set.hpp:209-213. The range [xs] is not part of the set. *)
Definition fs_extend (xs : list T) : sm unit := fs_insert_range xs.
(** set.hpp:227-259: the elements that the algorithm writes are inserted into a new set. *)
Definition fs_and {St} (a b : list T) : xm St (list T) := fs_of (std_intersection lt a b).
Definition fs_or {St} (a b : list T) : xm St (list T) := fs_of (std_union lt a b).
Definition fs_sub {St} (a b : list T) : xm St (list T) := fs_of (std_difference lt a b).
Definition fs_xor {St} (a b : list T) : xm St (list T) := fs_of (std_symmetric_difference lt a b).
(** set.hpp:182-206: the new set is moved into the old one. *)
Definition fs_and_assign (b : list T) : sm unit := a <~ xget ;; r <~ fs_and a b ;; xput r.
Definition fs_or_assign (b : list T) : sm unit := a <~ xget ;; r <~ fs_or a b ;; xput r.
Definition fs_sub_assign (b : list T) : sm unit := a <~ xget ;; r <~ fs_sub a b ;; xput r.
Definition fs_xor_assign (b : list T) : sm unit := a <~ xget ;; r <~ fs_xor a b ;; xput r.
(** set.hpp:139-152: returned by value *)
Definition fs_min {St} (a : list T) : xm St T := x <~ xlift (set_min a) ;; xevents ok cost ;~ xret x.
Definition fs_max {St} (a : list T) : xm St T := x <~ xlift (set_max a) ;; xevents ok cost ;~ xret x.

(** ** Programs: the statements of SetModel *)
Notation call := (on_object TThrow).
Notation new := (new_object TThrow).
Notation look := (looking TThrow).
(** [if (n <= INT_MAX - a.size()) ...] *)
Definition fs_guard (s : nat -> list T) (k : nat) (n : Z) (a : list T) (r : progress (list T) (tevent T)) : progress (list T) (tevent T) :=
  if n <=? INT_MAX - size a then r else Ok (s, k, []).

Definition fsstep (c : tstmt T) (s : nat -> list T) (k : nat) : progress (list T) (tevent T) :=
  match c with
  | TInit v xs => new s v k (fs_of xs)
  | TCopy v w => if Nat.eqb v w then Ok (s, k, []) else call s v k (fs_assign (s w)) tsilent
  | TMove v w => if Nat.eqb v w then UB SelfRange else Ok (place (place s v (s w)) w [], k, [])
  | TAdd v x => call s v k (fs_add x) (fun b => [TBool b])
  | TRemove v x => call s v k (xcalm (set_remove lt x)) (fun b => [TBool b])
  | TPop v => call s v k fs_pop (fun x => [TElem x])
  | TExtend v xs => fs_guard s k (len xs) (s v) (call s v k (fs_extend xs) tsilent)
  | TExtendSet v w =>
      fs_guard s k (size (s w)) (s v) (if Nat.eqb v w then UB SelfRange else call s v k (fs_extend (s w)) tsilent)
  | TClear v => call s v k (xcalm set_clear) tsilent
  | TAnd u v w => new s u k (fs_and (s v) (s w))
  | TOr u v w => fs_guard s k (size (s w)) (s v) (new s u k (fs_or (s v) (s w)))
  | TSub u v w => new s u k (fs_sub (s v) (s w))
  | TXor u v w => fs_guard s k (size (s w)) (s v) (new s u k (fs_xor (s v) (s w)))
  | TAndA v w => call s v k (fs_and_assign (s w)) tsilent
  | TOrA v w => fs_guard s k (size (s w)) (s v) (call s v k (fs_or_assign (s w)) tsilent)
  | TSubA v w => call s v k (fs_sub_assign (s w)) tsilent
  | TXorA v w => fs_guard s k (size (s w)) (s v) (call s v k (fs_xor_assign (s w)) tsilent)
  | TContains v x => look s k (xlift (Ok (set_contains lt (s v) x))) (fun b => [TBool b])
  | TMin v => look s k (fs_min (s v)) (fun x => [TElem x])
  | TMax v => look s k (fs_max (s v)) (fun x => [TElem x])
  | TSize v => look s k (xlift (Ok (size (s v)))) (fun n => [TNum n])
  | TIsEmpty v => look s k (xlift (Ok (set_is_empty (s v)))) (fun b => [TBool b])
  | TEqual v w => look s k (xlift (Ok (set_eqb eqb (s v) (s w)))) (fun b => [TBool b])
  | TLess v w => look s k (xlift (Ok (set_lt lt (s v) (s w)))) (fun b => [TBool b])
  | TLessEq v w => look s k (xlift (Ok (set_le lt (s v) (s w)))) (fun b => [TBool b])
  | TGreater v w => look s k (xlift (Ok (set_gt lt (s v) (s w)))) (fun b => [TBool b])
  | TGreaterEq v w => look s k (xlift (Ok (set_ge lt (s v) (s w)))) (fun b => [TBool b])
  | TIterate v => Ok (s, k, map Saw (map TElem (s v)))
  | TPrint v => look s k (xlift (Ok (set_print show (s v)))) (fun t => [TText t])
  end.

Definition fsrun : list (tstmt T) -> (nat -> list T) -> nat -> progress (list T) (tevent T) := steps fsstep.
End SetFail.
