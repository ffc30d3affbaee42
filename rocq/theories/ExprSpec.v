(** The numbers that expressions denote, and the laws of arithmetic. *)
From Coq Require Import ZArith QArith Qabs List Bool.
From Verif Require Import Outcome IntProgModel FracModel FracSpec ExprModel.
Import ListNotations.
Open Scope Z_scope.

Definition both {A B} (f : A -> A -> option B) (x y : option A) : option B :=
  match x, y with Some a, Some b => f a b | _, _ => None end.

(** Integers, division truncated toward zero; [None] when some divisor is 0. *)
Fixpoint zden (r : var -> Z) (e : expr) : option Z :=
  match e with
  | EVar v => Some (r v)
  | ELit n => Some n
  | ENeg a => option_map Z.opp (zden r a)
  | EAbs a => option_map Z.abs (zden r a)
  | EAdd a b => both (fun x y => Some (x + y)) (zden r a) (zden r b)
  | ESub a b => both (fun x y => Some (x - y)) (zden r a) (zden r b)
  | EMul a b => both (fun x y => Some (x * y)) (zden r a) (zden r b)
  | EDiv a b => both (fun x y => if y =? 0 then None else Some (Z.quot x y)) (zden r a) (zden r b)
  end.

(** Rationals; [None] when some divisor is 0. *)
Fixpoint qden (r : var -> Q) (e : expr) : option Q :=
  match e with
  | EVar v => Some (r v)
  | ELit n => Some (inject_Z n)
  | ENeg a => option_map Qopp (qden r a)
  | EAbs a => option_map Qabs (qden r a)
  | EAdd a b => both (fun x y => Some (x + y)%Q) (qden r a) (qden r b)
  | ESub a b => both (fun x y => Some (x - y)%Q) (qden r a) (qden r b)
  | EMul a b => both (fun x y => Some (x * y)%Q) (qden r a) (qden r b)
  | EDiv a b => both (fun x y => if Qeq_bool y 0 then None else Some (x / y)%Q) (qden r a) (qden r b)
  end.

(** The literals are ints, INT_MIN apart. *)
Fixpoint literals_ok (e : expr) : Prop :=
  match e with
  | EVar _ => True
  | ELit n => INT_MIN < n <= INT_MAX
  | ENeg a | EAbs a => literals_ok a
  | EAdd a b | ESub a b | EMul a b | EDiv a b => literals_ok a /\ literals_ok b
  end.

Definition same_rational (a b : option Q) : Prop :=
  match a, b with Some x, Some y => (x == y)%Q | None, None => True | _, _ => False end.

(** [o] is a correct outcome for an expression over fractions that denotes [d]: the fraction in
    lowest terms, the exception for a division by 0, or an int overflow on the way. *)
Definition right_outcome (o : outcome Fraction) (d : option Q) : Prop :=
  match o with
  | Ok f => valid f /\ exists q, d = Some q /\ (qval f == q)%Q
  | Throw x => x = DivideByZero /\ d = None
  | UB u => u = SignedOverflow
  | OutOfFuel => False
  end.

(** Laws of commutative rings in three variables, and of the absolute value. *)
Definition ring_laws : list (expr * expr) :=
  let x := EVar 0%nat in let y := EVar 1%nat in let z := EVar 2%nat in
  [ (EAdd x y, EAdd y x);
    (EAdd (EAdd x y) z, EAdd x (EAdd y z));
    (EAdd x (ELit 0), x);
    (EAdd x (ENeg x), ELit 0);
    (ESub x y, EAdd x (ENeg y));
    (ESub (EAdd x y) y, x);
    (ESub x x, ELit 0);
    (ENeg (ENeg x), x);
    (EMul x y, EMul y x);
    (EMul (EMul x y) z, EMul x (EMul y z));
    (EMul x (ELit 1), x);
    (EMul x (ELit 0), ELit 0);
    (EMul x (ELit (-1)), ENeg x);
    (EMul x (EAdd y z), EAdd (EMul x y) (EMul x z));
    (EMul (ESub x y) (EAdd x y), ESub (EMul x x) (EMul y y));
    (EAbs (EMul x y), EMul (EAbs x) (EAbs y));
    (EAbs (ENeg x), EAbs x) ].

(** Laws of truncated division, for [y] and [z] other than 0. *)
Definition quotient_laws : list (expr * expr) :=
  let x := EVar 0%nat in let y := EVar 1%nat in let z := EVar 2%nat in
  [ (EDiv (EMul x y) y, x);
    (EDiv x (ELit 1), x);
    (EDiv y y, ELit 1);
    (EDiv (ENeg x) y, ENeg (EDiv x y));
    (EDiv x (ENeg y), ENeg (EDiv x y));
    (EDiv (EAbs x) (EAbs y), EAbs (EDiv x y));
    (EDiv (EDiv x y) z, EDiv x (EMul y z));
    (EDiv (EMul x z) (EMul y z), EDiv x y) ].

(** Laws of fields that truncated division does not obey. *)
Definition field_laws : list (expr * expr) :=
  let x := EVar 0%nat in let y := EVar 1%nat in let z := EVar 2%nat in
  [ (EMul (EDiv x y) y, x);
    (EDiv (EAdd x z) y, EAdd (EDiv x y) (EDiv z y));
    (EMul y (EDiv (ELit 1) y), ELit 1);
    (EDiv x (EDiv y z), EDiv (EMul x z) y) ].
