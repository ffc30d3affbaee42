(** sources/set.hpp with a comparison that is code of the client, on the trees of TreeModel.v. Definitions only. [less] is the
    element type's [operator<], [eq] its [operator==]; the members that call neither are those of SetModel.v. *)
From Coq Require Import ZArith List Bool Ascii.
From Verif Require Import Outcome ListModel SetModel ListCallModel TreeModel.
Import ListNotations.
Open Scope Z_scope.

Section Set_.
Context {S X T : Type} (less eq : T -> T -> call S X bool) (shape : tree T -> list T -> tree T).
Notation TM := (TM S X T).
Notation insert_end := (insert_end (fun x => x) less shape).
Notation insert_all := (insert_all (fun x => x) less shape).

(** The algorithms on sorted ranges, writing to an inserter of the set they work on. *)
Fixpoint includes_calls (l : list T) : list T -> TM bool :=
  fix inner (m : list T) : TM bool :=
    match l, m with
    | _, [] => tret true
    | [], _ :: _ => tret false
    | x :: l', y :: m' =>
        b <~ task (less y x) ;;
        if b then tret false else c <~ task (less x y) ;; if c then includes_calls l' m else includes_calls l' m'
    end.
Fixpoint intersection_calls (l : list T) : list T -> TM unit :=
  fix inner (m : list T) : TM unit :=
    match l, m with
    | [], _ | _, [] => tret tt
    | x :: l', y :: m' =>
        b <~ task (less x y) ;;
        if b then intersection_calls l' m
        else c <~ task (less y x) ;; if c then inner m' else _ <~ insert_end x ;; intersection_calls l' m'
    end.
Fixpoint union_calls (l : list T) : list T -> TM unit :=
  fix inner (m : list T) : TM unit :=
    match l, m with
    | [], _ => insert_all m
    | _, [] => insert_all l
    | x :: l', y :: m' =>
        b <~ task (less x y) ;;
        if b then _ <~ insert_end x ;; union_calls l' m
        else c <~ task (less y x) ;; if c then _ <~ insert_end y ;; inner m' else _ <~ insert_end x ;; union_calls l' m'
    end.
Fixpoint difference_calls (l : list T) : list T -> TM unit :=
  fix inner (m : list T) : TM unit :=
    match l, m with
    | [], _ => tret tt
    | _, [] => insert_all l
    | x :: l', y :: m' =>
        b <~ task (less x y) ;;
        if b then _ <~ insert_end x ;; difference_calls l' m
        else c <~ task (less y x) ;; if c then inner m' else difference_calls l' m'
    end.
Fixpoint symmetric_calls (l : list T) : list T -> TM unit :=
  fix inner (m : list T) : TM unit :=
    match l, m with
    | [], _ => insert_all m
    | _, [] => insert_all l
    | x :: l', y :: m' =>
        b <~ task (less x y) ;;
        if b then _ <~ insert_end x ;; symmetric_calls l' m
        else c <~ task (less y x) ;; if c then _ <~ insert_end y ;; inner m' else symmetric_calls l' m'
    end.
(** std::equal *)
Fixpoint same_calls (l m : list T) : TM bool :=
  match l, m with
  | x :: l', y :: m' => b <~ task (eq x y) ;; if b then same_calls l' m' else tret false
  | _, _ => tret true
  end.

(** set.hpp:33-43 *)
Definition set_of_calls (xs : list T) : TM (tree T) := fresh (insert_all xs).
(** set.hpp:56: [==] of std::set, sizes first *)
Definition set_eq_calls (b : list T) : TM bool :=
  t <~ tget ;; if Nat.eqb (length (elems t)) (length b) then same_calls (elems t) b else tret false.
(** set.hpp:65-68, 77-80 *)
Definition set_le_calls (b : list T) : TM bool := t <~ tget ;; includes_calls b (elems t).
Definition set_ge_calls (b : list T) : TM bool := t <~ tget ;; includes_calls (elems t) b.
(** set.hpp:59-62, 71-74 *)
Definition set_lt_calls (b : list T) : TM bool :=
  t <~ tget ;; if negb (size (elems t) =? size b) then set_le_calls b else tret false.
Definition set_gt_calls (b : list T) : TM bool :=
  t <~ tget ;; if negb (size b =? size (elems t)) then set_ge_calls b else tret false.
(** set.hpp:127-136 *)
Definition set_contains_calls (x : T) : TM bool :=
  j <~ find_tree (fun x => x) less x ;; tret (match j with Some _ => true | None => false end).
(** set.hpp:159-164 *)
Definition set_add_calls (x : T) : TM bool :=
  t <~ tget ;; _ <~ tquiet (check_full (size (elems t)) INT_MAX) ;; insert_tree (fun x => x) less shape x.
(** set.hpp:167-170 *)
Definition set_remove_calls (x : T) : TM bool :=
  n <~ erase_tree (fun x => x) less shape x ;; tret (Nat.eqb n 1).
(** set.hpp:209-213 *)
Definition set_extend_calls (xs : list T) : TM unit := insert_all xs.
(** set.hpp:227-259 *)
Definition set_and_calls (b : list T) : TM (tree T) := t <~ tget ;; fresh (intersection_calls (elems t) b).
Definition set_or_calls (b : list T) : TM (tree T) := t <~ tget ;; fresh (union_calls (elems t) b).
Definition set_sub_calls (b : list T) : TM (tree T) := t <~ tget ;; fresh (difference_calls (elems t) b).
Definition set_xor_calls (b : list T) : TM (tree T) := t <~ tget ;; fresh (symmetric_calls (elems t) b).
(** set.hpp:182-206 *)
Definition set_and_assign_calls (b : list T) : TM unit := n <~ set_and_calls b ;; tput n.
Definition set_or_assign_calls (b : list T) : TM unit := n <~ set_or_calls b ;; tput n.
Definition set_sub_assign_calls (b : list T) : TM unit := n <~ set_sub_calls b ;; tput n.
Definition set_xor_assign_calls (b : list T) : TM unit := n <~ set_xor_calls b ;; tput n.
(** A member of SetModel.v that changes the set and calls no comparison. *)
Definition set_plain {A} (m : M (list T) A) : TM A := fun ts =>
  match m (elems (fst ts)) with
  | (Ok a, l) => (CRet a, (shape (fst ts) l, snd ts))
  | (o, _) => tquiet o ts
  end.
End Set_.

(** ** Client programs *)

(** What a client observes: [Caught] is an exception of its own comparison. *)
Inductive cevent (X V : Type) := Plain (v : V) | Caught (x : X).
Arguments Plain {X V}. Arguments Caught {X V}.

Definition cstore T := nat -> tree T.
Definition cset {T} (s : cstore T) (v : nat) (t : tree T) : cstore T := fun w => if Nat.eqb w v then t else s w.

Section Run.
Context {S X T : Type} (less eq : T -> T -> call S X bool) (show : T -> list ascii) (shape : tree T -> list T -> tree T).
Notation result := (outcome ((cstore T * S) * list (cevent X (tevent T)))).

(** A statement whose value [out] turns into events; [u] gets what it computes. *)
Definition ccall {A} (s : cstore T) (q : S) (v : nat) (m : TM S X T A) (save : A -> cstore T -> cstore T) (out : A -> list (tevent T)) : result :=
  match m (s v, q) with
  | (CRet a, (t, q')) => Ok ((save a (cset s v t), q'), map Plain (out a))
  | (CThrow (inl e), (t, q')) => Ok ((cset s v t, q'), [Plain (TThrow e)])
  | (CThrow (inr x), (t, q')) => Ok ((cset s v t, q'), [Caught x])
  | (CUB u, _) => UB u
  end.
Definition kept {A} (_ : A) (s : cstore T) : cstore T := s.
Definition saved (u : nat) (t : tree T) (s : cstore T) : cstore T := cset s u t.
Definition mute {A} (_ : A) : list (tevent T) := [].
Definition say (b : bool) : list (tevent T) := [TBool b].
Definition cguard (s : cstore T) (q : S) (n : Z) (a : list T) (k : result) : result :=
  if n <=? INT_MAX - size a then k else Ok ((s, q), []).

Definition cstep (c : tstmt T) (sq : cstore T * S) : result :=
  let (s, q) := sq in
  let el v := elems (s v) in
  match c with
  | TInit v xs => ccall s q v (set_of_calls less shape xs) (saved v) mute
  | TCopy v w => Ok ((cset s v (s w), q), [])
  | TMove v w => if Nat.eqb v w then UB SelfRange else Ok ((cset (cset s v (s w)) w Leaf, q), [])
  | TAdd v x => ccall s q v (set_add_calls less shape x) kept say
  | TRemove v x => ccall s q v (set_remove_calls less shape x) kept say
  | TPop v => ccall s q v (set_plain shape set_pop) kept (fun x => [TElem x])
  | TExtend v xs => cguard s q (len xs) (el v) (ccall s q v (set_extend_calls less shape xs) kept mute)
  | TExtendSet v w =>
      cguard s q (size (el w)) (el v) (if Nat.eqb v w then UB SelfRange else ccall s q v (set_extend_calls less shape (el w)) kept mute)
  | TClear v => ccall s q v (set_plain shape set_clear) kept mute
  | TAnd u v w => ccall s q v (set_and_calls less shape (el w)) (saved u) mute
  | TOr u v w => cguard s q (size (el w)) (el v) (ccall s q v (set_or_calls less shape (el w)) (saved u) mute)
  | TSub u v w => ccall s q v (set_sub_calls less shape (el w)) (saved u) mute
  | TXor u v w => cguard s q (size (el w)) (el v) (ccall s q v (set_xor_calls less shape (el w)) (saved u) mute)
  | TAndA v w => ccall s q v (set_and_assign_calls less shape (el w)) kept mute
  | TOrA v w => cguard s q (size (el w)) (el v) (ccall s q v (set_or_assign_calls less shape (el w)) kept mute)
  | TSubA v w => ccall s q v (set_sub_assign_calls less shape (el w)) kept mute
  | TXorA v w => cguard s q (size (el w)) (el v) (ccall s q v (set_xor_assign_calls less shape (el w)) kept mute)
  | TContains v x => ccall s q v (set_contains_calls less x) kept say
  | TMin v => ccall s q v (tquiet (set_min (el v))) kept (fun x => [TElem x])
  | TMax v => ccall s q v (tquiet (set_max (el v))) kept (fun x => [TElem x])
  | TSize v => Ok (sq, [Plain (TNum (size (el v)))])
  | TIsEmpty v => Ok (sq, [Plain (TBool (set_is_empty (el v)))])
  | TEqual v w => ccall s q v (set_eq_calls eq (el w)) kept say
  | TLess v w => ccall s q v (set_lt_calls less (el w)) kept say
  | TLessEq v w => ccall s q v (set_le_calls less (el w)) kept say
  | TGreater v w => ccall s q v (set_gt_calls less (el w)) kept say
  | TGreaterEq v w => ccall s q v (set_ge_calls less (el w)) kept say
  | TIterate v => Ok (sq, map Plain (map TElem (el v)))
  | TPrint v => Ok (sq, [Plain (TText (set_print show (el v)))])
  end.

Fixpoint crun (prog : list (tstmt T)) (sq : cstore T * S) : result :=
  match prog with
  | [] => Ok (sq, [])
  | c :: rest => se <- cstep c sq ;; se' <- crun rest (fst se) ;; Ok (fst se', snd se ++ snd se')
  end.
End Run.
