(** Iterators over Sets, set.hpp:86-108 and 127-130: a [std::set] keeps each element in a node of its own, and
    an iterator is the address of a node or the end of a set. [find_address] is that of ListRefModel, [nset] that
    of DictRefModel. *)
From Coq Require Import ZArith List Bool Ascii.
From Verif Require Import Outcome ListModel SetModel ListRefModel DictRefModel.
Import ListNotations.
Open Scope Z_scope.

(** An iterator variable: never set, at a node, or the end of [v] when that end was number [n]. *)
Inductive siter := SNone | SNode (a : nat) | SEnd (v n : nat).

(** The nodes of every set in iteration order (element and address), the next fresh address, the set a node
    belongs to, the number of the end of every set, and the iterators. A set gets a new end when it is assigned or
    moved. Addresses are never used twice, so that an iterator to a node is of use as long as the node is found. *)
Record nstate (T : Type) := NState {
  nd : nat -> list (T * nat);
  nc : nat;
  no : nat -> nat;
  ng : nat -> nat;
  ni : nat -> siter
}.
Arguments NState {T}. Arguments nd {T}. Arguments nc {T}. Arguments no {T}. Arguments ng {T}. Arguments ni {T}.

Inductive nstmt (T : Type) :=
| NDo (c : tstmt T)                  (* a statement without iterators *)
| NFind (i v : nat) (x : T)          (* i = v.find(x); *)
| NBegin (i v : nat)                 (* i = v.begin(); *)
| NEnd (i v : nat)                   (* i = v.end(); *)
| NCopy (i j : nat)                  (* i = j; *)
| NNext (i : nat)                    (* ++i; *)
| NPrev (i : nat)                    (* --i; *)
| NRead (i : nat)                    (* emit( *i); *)
| NBack (i : nat)                    (* emit( *std::make_reverse_iterator(i)); *)
| NSame (i j : nat)                  (* emit(i == j); *)
| NAdd (v i : nat)                   (* emit(v.add( *i)); *)
| NAddF (v i : nat) (f : T -> T)     (* emit(v.add(f( *i))); *)
| NRemove (v i : nat)                (* emit(v.remove( *i)); *)
| NRemoveIf (v i : nat) (f : T -> bool) (* if (f( *i)) emit(v.remove( *i)); *)
| NRange (v i j : nat)               (* v = Set(i, j); *)
| NRevRange (v i j : nat)            (* v = Set(std::make_reverse_iterator(i), std::make_reverse_iterator(j)); *)
| NExtend (v i j : nat).             (* if (std::distance(i, j) <= INT_MAX - v.size()) v.extend(i, j); *)
Arguments NDo {T}. Arguments NFind {T}. Arguments NBegin {T}. Arguments NEnd {T}. Arguments NCopy {T}. Arguments NNext {T}.
Arguments NPrev {T}. Arguments NRead {T}. Arguments NBack {T}. Arguments NSame {T}. Arguments NAdd {T}. Arguments NAddF {T}.
Arguments NRemove {T}. Arguments NRemoveIf {T}. Arguments NRange {T}. Arguments NRevRange {T}. Arguments NExtend {T}.

Section Run.
Context {T : Type} (lt eqb : T -> T -> bool) (show : T -> list ascii).
Notation result := (outcome (nstate T * list (tevent T))).

(** The elements of the sets. *)
Definition nview (s : nstate T) : tstore T := fun v => map fst (nd s v).
(** [std::less<T>] on nodes compares the elements. *)
Definition nlt (p q : T * nat) : bool := lt (fst p) (fst q).
(** New nodes for the elements [xs], at the addresses from [n] on. *)
Definition numbered (n : nat) (xs : list T) : list (T * nat) := combine xs (seq n (length xs)).
(** The nodes at the addresses from [n] on belong to [v]. *)
Definition owned (v n : nat) (o : nat -> nat) : nat -> nat := fun a => if Nat.leb n a then v else o a.

(** [v] is assigned a set with the elements [l], all in new nodes: [Set& operator=(Set&&)] and
    [Set& operator=(const Set&)] of the class of set.hpp:16-21, not declared there, so those of [std::set]. *)
Definition n_assign (v : nat) (l : list T) (s : nstate T) : nstate T :=
  NState (nset (nd s) v (numbered (nc s) l)) (nc s + length l) (owned v (nc s) (no s)) (nset (ng s) v (Datatypes.S (ng s v))) (ni s).
(** [v] takes the nodes of another set [w], likewise. *)
Definition n_move (v w : nat) (s : nstate T) : nstate T :=
  NState (nset (nset (nd s) v (nd s w)) w []) (nc s) (fun a => if Nat.eqb (no s a) w then v else no s a)
    (nset (nset (ng s) v (Datatypes.S (ng s v))) w (Datatypes.S (ng s w))) (ni s).
(** A member that changes the nodes of [v] in place, with at most [k] new ones. *)
Definition n_call {A} (v k : nat) (m : M (list (T * nat)) A) (out : A -> list (tevent T)) (s : nstate T) : result :=
  match m (nd s v) with
  | (Ok a, l) => Ok (NState (nset (nd s) v l) (nc s + k) (owned v (nc s) (no s)) (ng s) (ni s), out a)
  | (Throw e, l) => Ok (NState (nset (nd s) v l) (nc s + k) (owned v (nc s) (no s)) (ng s) (ni s), [TThrow e])
  | (UB u, _) => UB u
  | (OutOfFuel, _) => OutOfFuel
  end.
(** [if (n <= INT_MAX - a.size()) ...] *)
Definition n_guard (n : Z) (v : nat) (s : nstate T) (k : result) : result :=
  if n <=? INT_MAX - size (nd s v) then k else Ok (s, []).

(** The statements without iterators. *)
Definition n_do (c : tstmt T) (s : nstate T) : result :=
  let e := nview s in
  match c with
  (* set.hpp:33-36 *)
  | TInit v xs => Ok (n_assign v (set_of lt xs) s, [])
  | TCopy v w => if Nat.eqb v w then Ok (s, []) else Ok (n_assign v (e w) s, [])
  | TMove v w => if Nat.eqb v w then UB SelfRange else Ok (n_move v w s, [])
  (* set.hpp:159-164 *)
  | TAdd v x => n_call v 1 (set_add nlt (x, nc s)) (fun b => [TBool b]) s
  (* set.hpp:167-170 *)
  | TRemove v x => n_call v 0 (set_remove nlt (x, nc s)) (fun b => [TBool b]) s
  (* set.hpp:173-178 *)
  | TPop v => n_call v 0 set_pop (fun p => [TElem (fst p)]) s
  (* set.hpp:209-213 *)
  | TExtend v xs => n_guard (len xs) v s (n_call v (length xs) (set_extend nlt (numbered (nc s) xs)) (fun _ => []) s)
  | TExtendSet v w => n_guard (size (nd s w)) v s
      (if Nat.eqb v w then UB SelfRange
       else n_call v (length (e w)) (set_extend nlt (numbered (nc s) (e w))) (fun _ => []) s)
  (* set.hpp:216-219 *)
  | TClear v => n_call v 0 set_clear (fun _ => []) s
  (* set.hpp:227-259 *)
  | TAnd u v w => Ok (n_assign u (set_and lt (e v) (e w)) s, [])
  | TOr u v w => n_guard (size (nd s w)) v s (Ok (n_assign u (set_or lt (e v) (e w)) s, []))
  | TSub u v w => Ok (n_assign u (set_sub lt (e v) (e w)) s, [])
  | TXor u v w => n_guard (size (nd s w)) v s (Ok (n_assign u (set_xor lt (e v) (e w)) s, []))
  (* set.hpp:182-206 *)
  | TAndA v w => Ok (n_assign v (set_and lt (e v) (e w)) s, [])
  | TOrA v w => n_guard (size (nd s w)) v s (Ok (n_assign v (set_or lt (e v) (e w)) s, []))
  | TSubA v w => Ok (n_assign v (set_sub lt (e v) (e w)) s, [])
  | TXorA v w => n_guard (size (nd s w)) v s (Ok (n_assign v (set_xor lt (e v) (e w)) s, []))
  (* the others change nothing *)
  | c => match tstep lt eqb show c e with Ok (_, ev) => Ok (s, ev) | Throw x => Throw x | UB u => UB u | OutOfFuel => OutOfFuel end
  end.

(** The set of an iterator and its place in the order of iteration; the place of the end is the number of elements. *)
Definition n_at (s : nstate T) (i : nat) : outcome (nat * nat) :=
  match ni s i with
  | SNone => UB BadDeref
  | SNode a => match find_address a (map snd (nd s (no s a))) with Some p => Ok (no s a, p) | None => UB BadDeref end
  | SEnd v n => if Nat.eqb n (ng s v) then Ok (v, length (nd s v)) else UB BadDeref
  end.
(** The iterator [i] is put at place [p] of [v]. *)
Definition n_put (i v p : nat) (s : nstate T) : nstate T :=
  NState (nd s) (nc s) (no s) (ng s)
    (nset (ni s) i (match nth_error (nd s v) p with Some (_, a) => SNode a | None => SEnd v (ng s v) end)).
(** The element at place [p] of [v]. *)
Definition n_elem (s : nstate T) (v p : nat) : outcome T :=
  match nth_error (nd s v) p with Some (x, _) => Ok x | None => UB BadDeref end.
(** The elements of the range [i, j). *)
Definition n_range (s : nstate T) (i j : nat) : outcome (nat * list T) :=
  x <- n_at s i ;; y <- n_at s j ;;
  if Nat.eqb (fst x) (fst y) && Nat.leb (snd x) (snd y)
  then Ok (fst x, firstn (snd y - snd x) (skipn (snd x) (nview s (fst x)))) else UB BadDeref.
(** The place [std::set::find(x)] returns. *)
Definition n_find (x : T) (l : list (T * nat)) : nat :=
  let (a, b) := lower_bound nlt (x, O) l in
  match b with [] => length l | y :: _ => if lt x (fst y) then length l else length a end.

Definition n_step (c : nstmt T) (s : nstate T) : result :=
  match c with
  | NDo c => n_do c s
  (* set.hpp:127-130 *)
  | NFind i v x => Ok (n_put i v (n_find x (nd s v)) s, [])
  (* set.hpp:87-90 *)
  | NBegin i v => Ok (n_put i v O s, [])
  (* set.hpp:93-96 *)
  | NEnd i v => Ok (n_put i v (length (nd s v)) s, [])
  | NCopy i j => x <- n_at s j ;; Ok (n_put i (fst x) (snd x) s, [])
  | NNext i => x <- n_at s i ;; _ <- n_elem s (fst x) (snd x) ;; Ok (n_put i (fst x) (Datatypes.S (snd x)) s, [])
  | NPrev i => x <- n_at s i ;; match snd x with O => UB BadDeref | Datatypes.S p => Ok (n_put i (fst x) p s, []) end
  | NRead i => x <- n_at s i ;; y <- n_elem s (fst x) (snd x) ;; Ok (s, [TElem y])
  (* [rbegin] and [rend], set.hpp:99-108, are the reverse iterators made of [end] and [begin] *)
  | NBack i => x <- n_at s i ;;
      match snd x with O => UB BadDeref | Datatypes.S p => y <- n_elem s (fst x) p ;; Ok (s, [TElem y]) end
  | NSame i j => x <- n_at s i ;; y <- n_at s j ;;
      if Nat.eqb (fst x) (fst y) then Ok (s, [TBool (Nat.eqb (snd x) (snd y))]) else UB BadDeref
  | NAdd v i => x <- n_at s i ;; y <- n_elem s (fst x) (snd x) ;; n_do (TAdd v y) s
  | NAddF v i f => x <- n_at s i ;; y <- n_elem s (fst x) (snd x) ;; n_do (TAdd v (f y)) s
  | NRemove v i => x <- n_at s i ;; y <- n_elem s (fst x) (snd x) ;; n_do (TRemove v y) s
  | NRemoveIf v i f => x <- n_at s i ;; y <- n_elem s (fst x) (snd x) ;; if f y then n_do (TRemove v y) s else Ok (s, [])
  (* set.hpp:39-43 *)
  | NRange v i j => m <- n_range s i j ;; n_do (TInit v (snd m)) s
  | NRevRange v i j => m <- n_range s j i ;; n_do (TInit v (rev (snd m))) s
  (* set.hpp:209-213; [std::set::insert] requires that the range is not of the set itself *)
  | NExtend v i j => m <- n_range s i j ;;
      n_guard (len (snd m)) v s (if Nat.eqb (fst m) v then UB SelfRange else n_do (TExtend v (snd m)) s)
  end.

Fixpoint n_run (prog : list (nstmt T)) (s : nstate T) : result :=
  match prog with
  | [] => Ok (s, [])
  | c :: rest => se <- n_step c s ;; se' <- n_run rest (fst se) ;; Ok (fst se', snd se ++ snd se')
  end.

(** [while (i != e) body] *)
Fixpoint n_loop (fuel i e : nat) (body : list (nstmt T)) (s : nstate T) : result :=
  match fuel with
  | O => OutOfFuel
  | Datatypes.S fuel =>
      x <- n_at s i ;; y <- n_at s e ;;
      if negb (Nat.eqb (fst x) (fst y)) then UB BadDeref
      else if Nat.eqb (snd x) (snd y) then Ok (s, [])
      else se <- n_run body s ;; se' <- n_loop fuel i e body (fst se) ;; Ok (fst se', snd se ++ snd se')
  end.
(** [for (i = v.begin(), e = v.end(); i != e; ++i) body], also what [for (x : v)] stands for *)
Definition set_for (fuel i e v : nat) (body : list (nstmt T)) (s : nstate T) : result :=
  se <- n_run [NBegin i v; NEnd e v] s ;; n_loop fuel i e (body ++ [NNext i]) (fst se).
(** [for (r = v.rbegin(), q = v.rend(); r != q; ++r) body]: [i] and [e] are [r.base()] and [q.base()], and [*r] is [NBack i]. *)
Definition set_back (fuel i e v : nat) (body : list (nstmt T)) (s : nstate T) : result :=
  se <- n_run [NEnd i v; NBegin e v] s ;; n_loop fuel i e (body ++ [NPrev i]) (fst se).
End Run.

(** No sets and no iterators yet. *)
Definition nstate0 {T} : nstate T := NState (fun _ => []) O (fun _ => O) (fun _ => O) (fun _ => SNone).
