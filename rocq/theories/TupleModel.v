(** Model of sources/tuple.hpp.

    Element types are codes [u] in a set [U] with decidable equality ([std::is_same_v]);
    [el u] is the set of values of the type, [eqv u] its [operator==], [show u] what its
    [operator<<] writes. Access with an index rejected by [static_assert] is [None]. *)
From Coq Require Import String Ascii ZArith List Bool.
From Verif Require Import Outcome.
Import ListNotations.
Open Scope Z_scope.

(** tuple.hpp:15-16, 41-49: [Tuple<T, Ts...>] holds a [T] and is a [Tuple<Ts...>]. *)
Inductive tuple {U : Type} (el : U -> Type) : list U -> Type :=
| TNil : tuple el []
| TCons : forall u us, el u -> tuple el us -> tuple el (u :: us).
Arguments TNil {U el}.
Arguments TCons {U el u us} _ _.

(** An argument: a value of some type. *)
Definition arg {U : Type} (el : U -> Type) : Type := {u : U & el u}.

(** tuple.hpp:57-61, 130-134 *)
Fixpoint make_tuple {U} {el : U -> Type} (l : list (arg el)) : tuple el (map (@projT1 U el) l) :=
  match l with
  | [] => TNil
  | x :: l' => TCons (projT2 x) (make_tuple l')
  end.

(** tuple.hpp:34-37, 113-116 *)
Definition tuple_size {U} {el : U -> Type} {us : list U} (t : tuple el us) : Z := Z.of_nat (length us).

(** tuple.hpp:119-122; [None]: the empty tuple has no [rest] *)
Definition tuple_rest {U} {el : U -> Type} {us : list U} (t : tuple el us) : option {vs : list U & tuple el vs} :=
  match t with
  | TNil => None
  | TCons _ t' => Some (existT _ _ t')
  end.

(** tuple.hpp:94-106 *)
Fixpoint tuple_get {U} {el : U -> Type} {us : list U} (t : tuple el us) (i : nat) : option (arg el) :=
  match t with
  | TNil => None
  | TCons x t' => match i with O => Some (existT _ _ x) | S i' => tuple_get t' i' end
  end.

(** tuple.hpp:20-24, 68-80 *)
Fixpoint tuple_eqb {U} {el : U -> Type} (same : forall u v : U, {u = v} + {u <> v}) (eqv : forall u, el u -> el u -> bool)
    {us : list U} (t : tuple el us) {vs : list U} (s : tuple el vs) : bool :=
  match t with
  | TNil => tuple_size s =? 0
  | @TCons _ _ u _ x t' =>
      match s with
      | TNil => false
      | @TCons _ _ v _ y s' =>
          match same u v with
          | left e => if eqv v (eq_rect u el x v e) y then tuple_eqb same eqv t' s' else false
          | right _ => false
          end
      end
  end.
(** tuple.hpp:27-31, 83-87 *)
Definition tuple_neqb {U} {el : U -> Type} same eqv {us : list U} (t : tuple el us) {vs : list U} (s : tuple el vs) : bool :=
  match t with
  | TNil => negb (tuple_size s =? 0)
  | _ => negb (tuple_eqb same eqv t s)
  end.

(** tuple.hpp:139-147 *)
Fixpoint print_rest {U} {el : U -> Type} (show : forall u, el u -> list ascii) {us : list U} (t : tuple el us) : list ascii :=
  match t with
  | TNil => []
  | @TCons _ _ u _ x t' =>
      show u x ++ (if tuple_size (TCons x t') =? 1 then [] else list_ascii_of_string ", ") ++ print_rest show t'
  end.
(** tuple.hpp:156-169 *)
Definition tuple_print {U} {el : U -> Type} (show : forall u, el u -> list ascii) {us : list U} (t : tuple el us) : list ascii :=
  match t with
  | @TCons _ _ u _ x TNil => list_ascii_of_string "(" ++ show u x ++ list_ascii_of_string ",)"
  | _ => list_ascii_of_string "(" ++ print_rest show t ++ list_ascii_of_string ")"
  end.
