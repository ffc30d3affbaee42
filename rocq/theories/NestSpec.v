(** Vocabulary of the properties of nested containers. *)
From Coq Require Import ZArith List.
From Verif Require Import Outcome ListModel SetSpec.
Open Scope Z_scope.

(** Sets of which, for any two, one includes the other. *)
Definition chain {T} (lt : T -> T -> bool) (l : list (list T)) : Prop :=
  (forall a, In a l -> increasing lt a /\ len a <= INT_MAX) /\
  (forall a b, In a l -> In b l -> incl a b \/ incl b a).
