(** Specification vocabulary for tuples: lists of typed values. *)
From Coq Require Import String Ascii ZArith List Bool.
Import ListNotations.

(** Two typed values of the same type that compare equal. *)
Definition same_value {U : Type} {el : U -> Type} (eqv : forall u, el u -> el u -> bool) (p q : {u : U & el u}) : Prop :=
  exists u (a b : el u), p = existT _ u a /\ q = existT _ u b /\ eqv u a b = true.

(** The texts with a comma and a space between them. *)
Fixpoint commas (l : list (list ascii)) : list ascii :=
  match l with
  | [] => []
  | [x] => x
  | x :: l' => x ++ list_ascii_of_string ", " ++ commas l'
  end.

Definition text_of {U : Type} {el : U -> Type} (show : forall u, el u -> list ascii) (p : {u : U & el u}) : list ascii :=
  show (projT1 p) (projT2 p).

Definition shown (texts : list (list ascii)) : list ascii :=
  match texts with
  | [x] => list_ascii_of_string "(" ++ x ++ list_ascii_of_string ",)"
  | _ => list_ascii_of_string "(" ++ commas texts ++ list_ascii_of_string ")"
  end.
