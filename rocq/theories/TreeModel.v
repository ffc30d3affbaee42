(** std::set and std::map with a comparison that is code of the client. Definitions only.

    The client's [operator<] has a state of its own, of any type [S], and may throw, an exception of any type [X]. The
    containers are the search trees of libstdc++ (bits/stl_tree.h), a tree of any shape: where a change leaves the elements
    [l] in this order, the new tree is [shape t l], for any function [shape]; rotations and recolouring are not followed.
    Nodes are numbered in iteration order; the number of elements is the end. Copying an element does not throw. *)
From Coq Require Import ZArith List Bool.
From Verif Require Import Outcome ListCallModel.
Import ListNotations.
Open Scope Z_scope.

Inductive tree (E : Type) := Leaf | Node (red : bool) (l : tree E) (e : E) (r : tree E).
Arguments Leaf {E}. Arguments Node {E}.
(** The elements in iteration order. *)
Fixpoint elems {E} (t : tree E) : list E := match t with Leaf => [] | Node _ l e r => elems l ++ e :: elems r end.

Section Monad.
Context {S X : Type}.

(** Code that works on a tree and calls the client; the exceptions are those of the library or of the client. *)
Definition TM (E A : Type) : Type := tree E * S -> cres (exn + X) A * (tree E * S).
Definition tret {E A} (a : A) : TM E A := fun ts => (CRet a, ts).
Definition tbind {E A B} (m : TM E A) (f : A -> TM E B) : TM E B := fun ts =>
  match m ts with
  | (CRet a, ts') => f a ts'
  | (CThrow x, ts') => (CThrow x, ts')
  | (CUB u, ts') => (CUB u, ts')
  end.
(** A call of the client. *)
Definition task {E A} (c : call S X A) : TM E A := fun ts =>
  match c (snd ts) with
  | (inl a, s) => (CRet a, (fst ts, s))
  | (inr x, s) => (CThrow (inr x), (fst ts, s))
  end.
Definition tget {E} : TM E (tree E) := fun ts => (CRet (fst ts), ts).
Definition tput {E} (t : tree E) : TM E unit := fun ts => (CRet tt, (t, snd ts)).
(** The element of a node. *)
Definition telem {E} (i : nat) : TM E E := fun ts =>
  match nth_error (elems (fst ts)) i with Some e => (CRet e, ts) | None => (CUB BadDeref, ts) end.
(** A local container, empty at first, which is lost when an exception leaves the block. *)
Definition fresh {E F} (m : TM F unit) : TM E (tree F) := fun ts =>
  match m (Leaf, snd ts) with
  | (CRet _, (t, s)) => (CRet t, (fst ts, s))
  | (CThrow x, (_, s)) => (CThrow x, (fst ts, s))
  | (CUB u, (_, s)) => (CUB u, (fst ts, s))
  end.
(** Something that calls no code of the client. *)
Definition tquiet {E A} (o : outcome A) : TM E A := fun ts =>
  match o with
  | Ok a => (CRet a, ts)
  | Throw e => (CThrow (inl e), ts)
  | UB u => (CUB u, ts)
  | OutOfFuel => (CUB BadDeref, ts)
  end.
End Monad.
Arguments TM S X E A : clear implicits.

Notation "x <~ m ;; f" := (tbind m (fun x => f)) (at level 61, m at next level, right associativity).

Section Tree.
Context {S X E K : Type} (key : E -> K) (less : K -> K -> call S X bool) (shape : tree E -> list E -> tree E).
Notation TM := (TM S X E).

(** The elements after a change. *)
Definition tchange (l : list E) : TM unit := t <~ tget ;; tput (shape t l).

(** _M_lower_bound, from node [y] for the subtree [t], whose first node has the number [lo] *)
Fixpoint lower_calls (t : tree E) (k : K) (lo y : nat) : TM nat :=
  match t with
  | Leaf => tret y
  | Node _ l e r =>
      let i := (lo + length (elems l))%nat in
      b <~ task (less (key e) k) ;; if b then lower_calls r k (i + 1) y else lower_calls l k lo i
  end.
(** _M_upper_bound *)
Fixpoint upper_calls (t : tree E) (k : K) (lo y : nat) : TM nat :=
  match t with
  | Leaf => tret y
  | Node _ l e r =>
      let i := (lo + length (elems l))%nat in
      b <~ task (less k (key e)) ;; if b then upper_calls l k lo i else upper_calls r k (i + 1) y
  end.
(** equal_range *)
Fixpoint range_calls (t : tree E) (k : K) (lo y : nat) : TM (nat * nat) :=
  match t with
  | Leaf => tret (y, y)
  | Node _ l e r =>
      let i := (lo + length (elems l))%nat in
      b <~ task (less (key e) k) ;;
      if b then range_calls r k (i + 1) y
      else c <~ task (less k (key e)) ;;
           if c then range_calls l k lo i
           else a <~ lower_calls l k lo i ;; z <~ upper_calls r k (i + 1) y ;; tret (a, z)
  end.
(** find, [None] for end() *)
Definition find_tree (k : K) : TM (option nat) :=
  t <~ tget ;; j <~ lower_calls t k 0 (length (elems t)) ;;
  if Nat.eqb j (length (elems t)) then tret None
  else e <~ telem j ;; b <~ task (less k (key e)) ;; tret (if b then None else Some j).
(** The descent of _M_get_insert_unique_pos: the last node, [None] in an empty tree, and whether it went left there *)
Fixpoint descend_calls (t : tree E) (k : K) (lo : nat) (y : option nat) (left : bool) : TM (option nat * bool) :=
  match t with
  | Leaf => tret (y, left)
  | Node _ l e r =>
      let i := (lo + length (elems l))%nat in
      b <~ task (less k (key e)) ;;
      if b then descend_calls l k lo (Some i) true else descend_calls r k (i + 1) (Some i) false
  end.
(** _M_get_insert_unique_pos: [None] when the key is present, otherwise the parent of the new node *)
Definition unique_pos (k : K) : TM (option (option nat)) :=
  t <~ tget ;; yc <~ descend_calls t k 0 None true ;;
  let before j := e <~ telem j ;; b <~ task (less (key e) k) ;; tret (if b then Some (fst yc) else None) in
  match yc with
  | (None, _) | (Some O, true) => tret (Some (fst yc))
  | (Some (Datatypes.S j), true) => before j
  | (Some j, false) => before j
  end.
(** _M_insert_ below [y] *)
Definition link (e : E) (y : option nat) : TM unit :=
  t <~ tget ;;
  match y with
  | None => tchange (e :: elems t)
  | Some i =>
      p <~ telem i ;; b <~ task (less (key e) (key p)) ;;
      let j := if b then i else (i + 1)%nat in tchange (firstn j (elems t) ++ e :: skipn j (elems t))
  end.
(** insert(e).second *)
Definition insert_tree (e : E) : TM bool :=
  p <~ unique_pos (key e) ;;
  match p with
  | None => tret false
  | Some y => _ <~ link e y ;; tret true
  end.
(** insert(end(), e), used by insert(first, last), by the constructors from a range and by std::inserter; the iterator of the
    latter is always the end because the elements arrive in increasing order *)
Definition insert_end (e : E) : TM unit :=
  t <~ tget ;;
  let n := length (elems t) in
  last <~ (if Nat.eqb n 0 then tret false else p <~ telem (n - 1) ;; task (less (key p) (key e))) ;;
  if last then link e (Some (n - 1)%nat) else _ <~ insert_tree e ;; tret tt.
Fixpoint insert_all (xs : list E) : TM unit :=
  match xs with
  | [] => tret tt
  | e :: xs' => _ <~ insert_end e ;; insert_all xs'
  end.
(** erase(k): the number of elements erased *)
Definition erase_tree (k : K) : TM nat :=
  t <~ tget ;; az <~ range_calls t k 0 (length (elems t)) ;;
  let (a, z) := az in
  if Nat.ltb z a then (fun ts => (CUB InvalidRange, ts))
  else if Nat.eqb a z then tret 0%nat
  else _ <~ tchange (firstn a (elems t) ++ skipn z (elems t)) ;; tret (z - a)%nat.
End Tree.
