(** Model of sources/fraction.hpp. *)
From Coq Require Import ZArith List Bool Ascii.
From Verif Require Import Outcome IntModel Show StreamModel FloatModel.
Import ListNotations.
Open Scope Z_scope.

(** fraction.hpp:19-22 *)
Record Fraction : Type := Frac { num : Z; den : Z }.

(** [std::gcd] at type int: undefined when a magnitude is not an int. *)
Definition std_gcd (m n : Z) : outcome Z :=
  if (m =? INT_MIN) || (n =? INT_MIN) then UB SignedOverflow else Ok (Z.gcd m n).

(** fraction.hpp:30-48 *)
Definition frac_make (n d : Z) : outcome Fraction :=
  check_zero d ;;;
  nd <- (if d <? 0 then n' <- chk32 (- n) ;; d' <- chk32 (- d) ;; Ok (n', d') else Ok (n, d)) ;;
  g <- std_gcd (fst nd) (snd nd) ;;
  Ok (Frac (Z.quot (fst nd) g) (Z.quot (snd nd) g)).

(** Implicit conversion int -> Fraction (same constructor, denominator 1). *)
Definition frac_of_int (n : Z) : outcome Fraction := frac_make n 1.

(** fraction.hpp:50-60, 84-98: value moved, source afterwards *)
Definition frac_move (f : Fraction) : Fraction * Fraction := (f, Frac 0 1).

(** fraction.hpp:66-78. [<], [<=], [>], [>=] are rewritten to comparisons of this int with 0. *)
Definition frac_cmp (x y : Fraction) : outcome Z :=
  p <- chk32 (num x * den y) ;; q <- chk32 (den x * num y) ;; chk32 (p - q).
Definition frac_lt x y : outcome bool := c <- frac_cmp x y ;; Ok (c <? 0).
Definition frac_le x y : outcome bool := c <- frac_cmp x y ;; Ok (c <=? 0).
Definition frac_gt x y : outcome bool := c <- frac_cmp x y ;; Ok (0 <? c).
Definition frac_ge x y : outcome bool := c <- frac_cmp x y ;; Ok (0 <=? c).

(** fraction.hpp:104-107 *)
Definition frac_double (f : Fraction) : double := ddiv (double_of_Z (num f)) (double_of_Z (den f)).

(** [x == y]: the class declares no [operator==], so both sides convert to double. *)
Definition frac_eqb (x y : Fraction) : bool := deqb (frac_double x) (frac_double y).
(** [x == 0] with an int literal: the literal converts to double. *)
Definition frac_is0 (x : Fraction) : bool := deqb (frac_double x) (double_of_Z 0).

(** utility.hpp:58-65 at Fraction: [number == Fraction(0)] *)
Definition frac_check_zero (f : Fraction) : outcome unit :=
  if frac_eqb f (Frac 0 1) then Throw DivideByZero else Ok tt.

(** fraction.hpp:172-175 *)
Definition frac_pos (x : Fraction) : Fraction := x.
(** fraction.hpp:178-181 *)
Definition frac_neg (x : Fraction) : outcome Fraction := n <- chk32 (- num x) ;; frac_make n (den x).
(** fraction.hpp:184-187 *)
Definition frac_abs (x : Fraction) : outcome Fraction := if 0 <=? num x then Ok x else frac_neg x.

(** fraction.hpp:190-193. Operand evaluation order does not matter: none has a side effect. *)
Definition frac_add (x y : Fraction) : outcome Fraction :=
  p <- chk32 (num x * den y) ;; q <- chk32 (den x * num y) ;; n <- chk32 (p + q) ;;
  d <- chk32 (den x * den y) ;; frac_make n d.
(** fraction.hpp:196-199 *)
Definition frac_sub (x y : Fraction) : outcome Fraction :=
  p <- chk32 (num x * den y) ;; q <- chk32 (den x * num y) ;; n <- chk32 (p - q) ;;
  d <- chk32 (den x * den y) ;; frac_make n d.
(** fraction.hpp:202-205 *)
Definition frac_mul (x y : Fraction) : outcome Fraction :=
  n <- chk32 (num x * num y) ;; d <- chk32 (den x * den y) ;; frac_make n d.
(** fraction.hpp:208-211 *)
Definition frac_div (x y : Fraction) : outcome Fraction :=
  n <- chk32 (num x * den y) ;; d <- chk32 (den x * num y) ;; frac_make n d.

(** The built-in [%] on int: zero divisor and INT_MIN % -1 are undefined. *)
Definition int_rem (a b : Z) : outcome Z :=
  if b =? 0 then UB SignedOverflow else if (a =? INT_MIN) && (b =? -1) then UB SignedOverflow else Ok (Z.rem a b).

(** fraction.hpp:214-219 *)
Definition frac_mod (x y : Fraction) : outcome Fraction :=
  frac_check_zero y ;;;
  p <- chk32 (num x * den y) ;; q <- chk32 (num y * den x) ;; r <- int_rem p q ;;
  d <- chk32 (den x * den y) ;; frac_make r d.

(** fraction.hpp:126-153: [return *this = *this op rhs;] outcome and object afterwards *)
Definition frac_assign (op : Fraction -> Fraction -> outcome Fraction) (x y : Fraction) : outcome unit * Fraction :=
  match op x y with
  | Ok r => (Ok tt, r)
  | Throw e => (Throw e, x)
  | UB u => (UB u, x)
  | OutOfFuel => (OutOfFuel, x)
  end.
(** fraction.hpp:156-165: [*this += 1], [*this -= 1] *)
Definition frac_inc (x : Fraction) : outcome unit * Fraction :=
  frac_assign (fun a b => one <- frac_of_int 1 ;; frac_add a one) x x.
Definition frac_dec (x : Fraction) : outcome unit * Fraction :=
  frac_assign (fun a b => one <- frac_of_int 1 ;; frac_sub a one) x x.

(** utility.hpp:110-115, the loop of [internal::gcd] at Fraction *)
Fixpoint frac_gcd_loop (fuel : nat) (a b : Fraction) : outcome Fraction :=
  match fuel with
  | O => OutOfFuel
  | S f => if frac_is0 b then Ok a else r <- frac_mod a b ;; frac_gcd_loop f b r
  end.
(** utility.hpp:102-118; fraction.hpp:222-225 *)
Definition frac_gcd (fuel : nat) (a b : Fraction) : outcome Fraction :=
  a' <- frac_abs a ;; b' <- frac_abs b ;; frac_gcd_loop fuel a' b'.
(** fraction.hpp:228-236 *)
Definition frac_lcm (fuel : nat) (a b : Fraction) : outcome Fraction :=
  if frac_is0 a || frac_is0 b then frac_of_int 0
  else p <- frac_mul a b ;; q <- frac_abs p ;; g <- frac_gcd fuel a b ;; frac_div q g.

(** fraction.hpp:243-253 *)
Definition slash : ascii := "/"%char.
Definition frac_print (f : Fraction) : list ascii :=
  if den f =? 1 then show_int (num f) else show_int (num f) ++ slash :: show_int (den f).

(** fraction.hpp:264-297, [operator>>] *)

(** [while (is.peek() <= 0x20) is.ignore();] end of input peeks as -1. *)
Fixpoint skip_blank (fuel : nat) (s : istream) : outcome istream :=
  match fuel with
  | O => OutOfFuel
  | S f => let (c, s1) := peek s in if c <=? 32 then skip_blank f (ignore s1) else Ok s1
  end.

Definition starts_number (c : Z) : bool :=
  ((48 <=? c) && (c <=? 57)) || (c =? 45) || (c =? 43).

(** The test reads [std::isdigit(is.peek()) || is.peek() == '-' || is.peek() == '+']: when it fails two more peeks have been made,
    which set failbit if the first one met the end of input. *)
Definition peeked_again (s : istream) : istream := snd (peek (snd (peek s))).

(** fraction.hpp:264-297 *)
Definition frac_extract (fuel : nat) (s0 : istream) (f : Fraction) : outcome unit * (istream * Fraction) :=
  match skip_blank fuel s0 with
  | Ok s =>
      (* here the repeated peeks of the test see the same good stream *)
      let (c0, s1) := peek s in
      if negb (starts_number c0) then (Throw WrongFractionLiteral, (s1, f)) else
      let (n, s2) := extract_int s1 in
      let (c1, s3) := peek s2 in
      if c1 <=? 32 then
        match frac_of_int n with
        | Ok r => (Ok tt, (s3, r))
        | Throw e => (Throw e, (s3, f))
        | UB u => (UB u, (s3, f))
        | OutOfFuel => (OutOfFuel, (s3, f))
        end
      else
        let (c, s4) := extract_char s3 in
        let (c2, s5) := peek s4 in
        if negb (starts_number c2) then (Throw WrongFractionLiteral, (peeked_again s5, f)) else
        let (d, s6) := extract_int s5 in
        if negb (code c =? 47) then (Throw WrongFractionLiteral, (s6, f)) else
        let (c3, s7) := peek s6 in
        if 32 <? c3 then (Throw WrongFractionLiteral, (s7, f)) else
        match frac_make n d with
        | Ok r => (Ok tt, (s7, r))
        | Throw e => (Throw e, (s7, f))
        | UB u => (UB u, (s7, f))
        | OutOfFuel => (OutOfFuel, (s7, f))
        end
  | Throw e => (Throw e, (s0, f))
  | UB u => (UB u, (s0, f))
  | OutOfFuel => (OutOfFuel, (s0, f))
  end.

(** fraction.hpp:303-309, for arbitrary [std::hash<int>] and word operations *)
Definition frac_hash (hi : Z -> Z) (lxor : Z -> Z -> Z) (shl1 : Z -> Z) (f : Fraction) : Z :=
  lxor (hi (num f)) (shl1 (hi (den f))).

(** ** Reading loops of client code *)

(** [for (auto& x : xs) is >> x;] over [n] targets *)
Fixpoint frac_extract_all (fuel n : nat) (s : istream) : outcome (list Fraction * istream) :=
  match n with
  | O => Ok ([], s)
  | S n' =>
      match frac_extract fuel s (Frac 0 1) with
      | (Ok _, (s', x)) => r <- frac_extract_all fuel n' s' ;; Ok (x :: fst r, snd r)
      | (Throw e, _) => Throw e
      | (UB u, _) => UB u
      | (OutOfFuel, _) => OutOfFuel
      end
  end.

(** [while (is >> f) out.push_back(f);] *)
Fixpoint frac_read_loop (fuel : nat) (s : istream) : outcome (list Fraction) :=
  match fuel with
  | O => OutOfFuel
  | S n =>
      match frac_extract fuel s (Frac 0 1) with
      | (Ok _, (s', x)) => if failbit s' then Ok [] else r <- frac_read_loop n s' ;; Ok (x :: r)
      | (Throw e, _) => Throw e
      | (UB u, _) => UB u
      | (OutOfFuel, _) => OutOfFuel
      end
  end.
