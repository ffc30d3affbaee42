(** Iterators over Dicts, sources/dict.hpp:67-88 and 135-138. Definitions only.

    An iterator is a node or the end of a map. The end belongs to the map object: assigning to a map
    or moving from it makes its earlier end iterators unusable (the standard does not keep them), which
    is expressed by a number that counts these events. A reverse iterator is the iterator [base()], and [*r] is the entry in front
    of it, so [rbegin()] is the end and [rend()] the begin. *)
From Coq Require Import ZArith List Bool Ascii.
From Verif Require Import Outcome ListModel SetModel DictModel DictRefModel.
Import ListNotations.
Open Scope Z_scope.

Inductive iter := AtNode (a : nat) | AtEnd (v n : nat).

Record istate (K V : Type) := IState {
  ih : hstate K V;           (* Dict and pointer variables *)
  io : nat -> nat;           (* the map that a node belongs to *)
  ig : nat -> nat;           (* how often the end of a map has changed *)
  ii : nat -> option iter    (* the iterator variables *)
}.
Arguments IState {K V}. Arguments ih {K V}. Arguments io {K V}. Arguments ig {K V}. Arguments ii {K V}.

Inductive istmt (K V : Type) :=
| IDo (c : pstmt K V)                  (* a statement of DictRefModel.v *)
| IFind (i v : nat) (k : K)            (* i = v.find(k); *)
| IBegin (i v : nat)                   (* i = v.begin(); *)
| IEnd (i v : nat)                     (* i = v.end(); *)
| ICopy (i j : nat)                    (* i = j; *)
| INext (i : nat)                      (* ++i; *)
| IPrev (i : nat)                      (* --i; *)
| IPair (i : nat)                      (* emit( *i); *)
| IBack (i : nat)                      (* emit( *std::make_reverse_iterator(i)); *)
| ISame (i j : nat)                    (* emit(i == j); *)
| IPtr (r i : nat)                     (* r = &i->second; *)
| IRemove (v i : nat).                 (* emit(v.remove(i->first)); *)
Arguments IDo {K V}. Arguments IFind {K V}. Arguments IBegin {K V}. Arguments IEnd {K V}. Arguments ICopy {K V}. Arguments INext {K V}.
Arguments IPrev {K V}. Arguments IPair {K V}. Arguments IBack {K V}. Arguments ISame {K V}. Arguments IPtr {K V}. Arguments IRemove {K V}.

Section Iters.
Context {K V : Type} (ltk eqk : K -> K -> bool) (ltv eqv : V -> V -> bool) (showk : K -> list ascii) (showv : V -> list ascii).
Notation state := (istate K V).
Notation result := (outcome (state * list (mevent K V))).
Notation nodes := (list (K * nat)).

(** The variable in which a statement makes nodes. *)
Definition target (c : mstmt K V) : nat :=
  match c with MInit v _ | MCopy v _ | MAdd v _ _ | MExtend v _ | MExtendDict v _ => v | _ => 0%nat end.
(** A move hands the nodes over. *)
Definition owners (c : mstmt K V) (h : hstate K V) (own : nat -> nat) : nat -> nat := fun a =>
  if Nat.leb (hn h) a then target c
  else match c with
       | MMove v w => if existsb (fun p => Nat.eqb (snd p) a) (hd h w) then v else own a
       | _ => own a
       end.
(** Assignment and move change the ends. *)
Definition past (c : mstmt K V) (g : nat -> nat) : nat -> nat :=
  match c with
  | MInit v _ => nset g v (S (g v))
  | MCopy v w => if Nat.eqb v w then g else nset g v (S (g v))
  | MMove v w => fun u => if Nat.eqb u v || Nat.eqb u w then S (g u) else g u
  | _ => g
  end.
(** The statements without iterators. *)
Definition i_do (c : pstmt K V) (s : state) : result :=
  match h_step ltk eqk ltv eqv showk showv c (ih s) with
  | Ok (h, ev) =>
      match c with
      | PDo d => Ok (IState h (owners d (ih s) (io s)) (past d (ig s)) (ii s), ev)
      | _ => Ok (IState h (io s) (ig s) (ii s), ev)
      end
  | Throw e => Throw e
  | UB u => UB u
  | OutOfFuel => OutOfFuel
  end.

(** An iterator can be used if its node lives or if it is the present end. *)
Definition i_at (s : state) (i : nat) : outcome iter :=
  match ii s i with
  | Some (AtNode a) => if hl (ih s) a then Ok (AtNode a) else UB BadDeref
  | Some (AtEnd v n) => if Nat.eqb n (ig s v) then Ok (AtEnd v n) else UB BadDeref
  | None => UB BadDeref
  end.
(** The map an iterator belongs to. *)
Definition i_owner (s : state) (t : iter) : nat := match t with AtNode a => io s a | AtEnd v _ => v end.
(** The entry in a node. *)
Definition i_entry (s : state) (a : nat) : outcome (K * nat) :=
  match filter (fun p => Nat.eqb (snd p) a) (hd (ih s) (io s a)) with p :: _ => Ok p | [] => UB BadDeref end.
(** Assignment to an iterator variable; the end of a map, dict.hpp:73-76. *)
Definition i_set (i : nat) (t : iter) (s : state) : state := IState (ih s) (io s) (ig s) (nset (ii s) i (Some t)).
Definition i_end (s : state) (v : nat) : iter := AtEnd v (ig s v).
(** The first of a range of nodes, or the end. *)
Definition i_first (s : state) (v : nat) (l : nodes) : iter := match l with p :: _ => AtNode (snd p) | [] => i_end s v end.
(** The nodes after the one at [a], and those before it, last first. *)
Fixpoint nodes_after (a : nat) (l : nodes) : nodes :=
  match l with [] => [] | p :: r => if Nat.eqb (snd p) a then r else nodes_after a r end.
Definition nodes_before (a : nat) (l : nodes) : nodes := nodes_after a (rev l).

(** [find] dict.hpp:135-138, [begin] 67-70, [end] 73-76, [rbegin] 79-82, [rend] 85-88, [remove] 201-204; the rest is std::map::const_iterator. Using an
    iterator that was never set or is no longer valid, leaving the range, and comparing iterators of different maps are undefined. *)
Definition i_step (c : istmt K V) (s : state) : result :=
  match c with
  | IDo c => i_do c s
  | IFind i v k =>
      Ok (i_set i (match map_find ltk k (hd (ih s) v) with Some a => AtNode a | None => i_end s v end) s, [])
  | IBegin i v => Ok (i_set i (i_first s v (hd (ih s) v)) s, [])
  | IEnd i v => Ok (i_set i (i_end s v) s, [])
  | ICopy i j => t <- i_at s j ;; Ok (i_set i t s, [])
  | INext i =>
      t <- i_at s i ;;
      match t with
      | AtNode a => Ok (i_set i (i_first s (io s a) (nodes_after a (hd (ih s) (io s a)))) s, [])
      | AtEnd _ _ => UB BadDeref
      end
  | IPrev i =>
      t <- i_at s i ;;
      match match t with
            | AtNode a => nodes_before a (hd (ih s) (io s a))
            | AtEnd v _ => rev (hd (ih s) v)
            end with
      | p :: _ => Ok (i_set i (AtNode (snd p)) s, [])
      | [] => UB BadDeref
      end
  | IPair i =>
      t <- i_at s i ;;
      match t with
      | AtNode a => p <- i_entry s a ;; Ok (s, [MPair (look (hm (ih s)) p)])
      | AtEnd _ _ => UB BadDeref
      end
  | IBack i =>
      t <- i_at s i ;;
      match match t with
            | AtNode a => nodes_before a (hd (ih s) (io s a))
            | AtEnd v _ => rev (hd (ih s) v)
            end with
      | p :: _ => Ok (s, [MPair (look (hm (ih s)) p)])
      | [] => UB BadDeref
      end
  | ISame i j =>
      t <- i_at s i ;;
      u <- i_at s j ;;
      if Nat.eqb (i_owner s t) (i_owner s u)
      then Ok (s, [MBool (match t, u with AtNode a, AtNode b => Nat.eqb a b | AtEnd _ _, AtEnd _ _ => true | _, _ => false end)])
      else UB BadDeref
  | IPtr r i =>
      t <- i_at s i ;;
      match t with
      | AtNode a => Ok (IState (h_bind r (Some a) (ih s)) (io s) (ig s) (ii s), [])
      | AtEnd _ _ => UB BadDeref
      end
  | IRemove v i =>
      t <- i_at s i ;;
      match t with
      | AtNode a => p <- i_entry s a ;; i_do (PDo (MRemove v (fst p))) s
      | AtEnd _ _ => UB BadDeref
      end
  end.

(** A program: the first undefined statement ends it. *)
Fixpoint i_run (prog : list (istmt K V)) (s : state) : result :=
  match prog with
  | [] => Ok (s, [])
  | c :: rest => se <- i_step c s ;; se' <- i_run rest (fst se) ;; Ok (fst se', snd se ++ snd se')
  end.

(** while (i != v.end()) { body } *)
Fixpoint i_loop (fuel : nat) (i v : nat) (body : list (istmt K V)) (s : state) : result :=
  match fuel with
  | O => OutOfFuel
  | S f =>
      t <- i_at s i ;;
      if Nat.eqb (i_owner s t) v
      then match t with
           | AtEnd _ _ => Ok (s, [])
           | AtNode _ => se <- i_run body s ;; se' <- i_loop f i v body (fst se) ;; Ok (fst se', snd se ++ snd se')
           end
      else UB BadDeref
  end.

(** while (r != v.rend()) { body }, where [i] is r.base() and [j] is v.begin(), taken before the loop *)
Fixpoint i_while (fuel : nat) (i j : nat) (body : list (istmt K V)) (s : state) : result :=
  match fuel with
  | O => OutOfFuel
  | S f =>
      t <- i_at s i ;;
      u <- i_at s j ;;
      if Nat.eqb (i_owner s t) (i_owner s u)
      then if match t, u with AtNode a, AtNode b => Nat.eqb a b | AtEnd _ _, AtEnd _ _ => true | _, _ => false end
           then Ok (s, [])
           else se <- i_run body s ;; se' <- i_while f i j body (fst se) ;; Ok (fst se', snd se ++ snd se')
      else UB BadDeref
  end.
End Iters.
