(** Expressions a client writes over Int and Fraction objects, evaluated with the operators of
    the headers, and the numbers the same expressions denote. *)
From Coq Require Import ZArith QArith Qabs List Bool.
From Verif Require Import Outcome IntModel IntProgModel FracModel.
Import ListNotations.
Open Scope Z_scope.

(** Built from the operators of int.hpp:584-619 and fraction.hpp:178-211. *)
Inductive expr : Type :=
| EVar : var -> expr
| ELit : Z -> expr
| ENeg : expr -> expr
| EAbs : expr -> expr
| EAdd : expr -> expr -> expr
| ESub : expr -> expr -> expr
| EMul : expr -> expr -> expr
| EDiv : expr -> expr -> expr.

(** int.hpp:584-619, and 161-170 for literals. C++ leaves the order of the two operands open;
    here the left one comes first. *)
Fixpoint int_eval (p : policy) (s : var -> Int) (e : expr) : outcome Int :=
  match e with
  | EVar v => Ok (s v)
  | ELit n => int_of_int n
  | ENeg a => x <- int_eval p s a ;; Ok (int_neg x)
  | EAbs a => x <- int_eval p s a ;; Ok (int_abs x)
  | EAdd a b => x <- int_eval p s a ;; y <- int_eval p s b ;; int_add p x y
  | ESub a b => x <- int_eval p s a ;; y <- int_eval p s b ;; int_sub p x y
  | EMul a b => x <- int_eval p s a ;; y <- int_eval p s b ;; int_mul p x y
  | EDiv a b => x <- int_eval p s a ;; y <- int_eval p s b ;; int_div p x y
  end.

(** fraction.hpp:178-211, and the constructor from int for literals (fraction.hpp:30-48). *)
Fixpoint frac_eval (s : var -> Fraction) (e : expr) : outcome Fraction :=
  match e with
  | EVar v => Ok (s v)
  | ELit n => frac_of_int n
  | ENeg a => x <- frac_eval s a ;; frac_neg x
  | EAbs a => x <- frac_eval s a ;; frac_abs x
  | EAdd a b => x <- frac_eval s a ;; y <- frac_eval s b ;; frac_add x y
  | ESub a b => x <- frac_eval s a ;; y <- frac_eval s b ;; frac_sub x y
  | EMul a b => x <- frac_eval s a ;; y <- frac_eval s b ;; frac_mul x y
  | EDiv a b => x <- frac_eval s a ;; y <- frac_eval s b ;; frac_div x y
  end.
