(** Containers whose elements are containers: the element order that the outer container uses.
    A model file: definitions only. *)
From Coq Require Import ZArith List Bool.
From Verif Require Import Outcome ListModel.

(** The standard's [synth-three-way] for an element type with [<] but no [<=>], such as Set
    (set.hpp:59-62); used by the [<=>] of std::vector and std::deque, hence by list.hpp:54 and
    deque.hpp:56. *)
Definition synth_cmp {T} (lt : T -> T -> bool) (x y : T) : comparison :=
  if lt x y then Lt else if lt y x then Gt else Eq.

(** [<] and [<=] of List and Deque, rewritten by the language to [<=>] (list.hpp:54, deque.hpp:56). *)
Definition seq_lt {T} (cmp : T -> T -> comparison) (v w : list T) : bool :=
  match list_cmp cmp v w with Lt => true | _ => false end.
Definition seq_le {T} (cmp : T -> T -> comparison) (v w : list T) : bool :=
  match list_cmp cmp v w with Gt => false | _ => true end.
