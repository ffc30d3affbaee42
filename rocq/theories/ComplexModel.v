(** Model of sources/complex.hpp. [double] arithmetic is that of FloatModel: every operation is
    rounded on its own, no contraction to fused operations. Functions of the C library are arguments. *)
From Coq Require Import String Ascii ZArith List Bool.
From Flocq Require Import BinarySingleNaN.
From Verif Require Import Outcome IntModel StreamModel FloatModel FracModel.
Import ListNotations.
Open Scope Z_scope.

(** complex.hpp:18-22 *)
Record Complex : Type := Cx { re : double; im : double }.

Definition d0 : double := double_of_Z 0.
Definition d1 : double := double_of_Z 1.

(** complex.hpp:30-34 with its default arguments: conversion from double *)
Definition cx_of (x : double) : Complex := Cx x d0.
Definition cx_zero : Complex := cx_of d0.

(** complex.hpp:40-46, 67-76: the target, and the source afterwards *)
Definition cx_move (that : Complex) : Complex * Complex := (that, Cx d0 d0).

(** [std::numeric_limits<double>::epsilon()], 2 to the power -52 *)
Definition epsilon : double := binary_normalize 53 1024 dprec_pos dprec_emax mode_NE 1 (-52) false.

(** complex.hpp:53-57 *)
Definition cx_eqb (a b : Complex) : bool :=
  dltb (dabs (dsub (re a) (re b))) epsilon && dltb (dabs (dsub (im a) (im b))) epsilon.

(** complex.hpp:95-104 *)
Definition cx_abs (hypot : double -> double -> double) (a : Complex) : double := hypot (re a) (im a).
Definition cx_arg (atan2 : double -> double -> double) (a : Complex) : double := atan2 (im a) (re a).

(** complex.hpp:139-154 *)
Definition cx_pos (a : Complex) : Complex := a.
Definition cx_neg (a : Complex) : Complex := Cx (dopp (re a)) (dopp (im a)).
Definition cx_conjugate (a : Complex) : Complex := Cx (re a) (dopp (im a)).
(** complex.hpp:157-160 *)
Definition cx_add (a b : Complex) : Complex := Cx (dadd (re a) (re b)) (dadd (im a) (im b)).
(** complex.hpp:163-166 *)
Definition cx_sub (a b : Complex) : Complex := Cx (dsub (re a) (re b)) (dsub (im a) (im b)).
(** complex.hpp:169-172 *)
Definition cx_mul (a b : Complex) : Complex :=
  Cx (dsub (dmul (re a) (re b)) (dmul (im a) (im b))) (dadd (dmul (re a) (im b)) (dmul (im a) (re b))).

(** utility.hpp:58-65 at Complex *)
Definition cx_check_zero (a : Complex) : outcome unit :=
  if cx_eqb a cx_zero then Throw DivideByZero else Ok tt.
(** complex.hpp:175-181 *)
Definition cx_div (a b : Complex) : outcome Complex :=
  cx_check_zero b ;;;
  let den := dadd (dmul (re b) (re b)) (dmul (im b) (im b)) in
  Ok (Cx (ddiv (dadd (dmul (re a) (re b)) (dmul (im a) (im b))) den)
         (ddiv (dsub (dmul (im a) (re b)) (dmul (re a) (im b))) den)).

(** complex.hpp:111-132: [return *this = *this op rhs;] outcome and object afterwards *)
Definition cx_assign (op : Complex -> Complex -> outcome Complex) (a b : Complex) : outcome unit * Complex :=
  match op a b with
  | Ok r => (Ok tt, fst (cx_move r))
  | Throw e => (Throw e, a)
  | UB u => (UB u, a)
  | OutOfFuel => (OutOfFuel, a)
  end.

(** complex.hpp:188-204. The functions of <cmath> are arguments. *)
Record libm : Type := Libm {
  m_hypot : double -> double -> double; m_atan2 : double -> double -> double; m_pow : double -> double -> double;
  m_exp : double -> double; m_log : double -> double; m_cos : double -> double; m_sin : double -> double }.
Definition cx_pow (m : libm) (base e : Complex) : outcome Complex :=
  if cx_eqb e (cx_of d0) then Ok (cx_of d1)
  else if cx_eqb base (cx_of d0) then Throw MathDomain
  else
    let r := cx_abs (m_hypot m) base in
    let phi := cx_arg (m_atan2 m) base in
    let coef := dmul (m_pow m r (re e)) (m_exp m (dmul (dopp phi) (im e))) in
    let theta := dadd (dmul (m_log m r) (im e)) (dmul phi (re e)) in
    Ok (Cx (dmul coef (m_cos m theta)) (dmul coef (m_sin m theta))).

(** complex.hpp:211-214; [show] is what [os <<] writes for a double. *)
Definition cx_print (show : double -> list ascii) (a : Complex) : list ascii :=
  "("%char :: show (re a) ++ (if dltb (im a) d0 then "-"%char else "+"%char) :: show (dabs (im a)) ++ ["j"%char; ")"%char].

(** ** Input *)

(** The characters [num_get] accumulates for a [double] after the optional sign (libstdc++,
    C locale): whether a mantissa digit, the point and the exponent letter have been seen, and
    whether a sign may follow. Returns the text and what is left. *)
Fixpoint float_text (mant dec sci sg : bool) (l : list ascii) : list ascii * list ascii :=
  match l with
  | [] => ([], [])
  | c :: l' =>
      if is_digit_char c then let (t, r) := float_text (mant || negb sci) dec sci false l' in (c :: t, r)
      else if (code c =? 46) && negb dec && negb sci then let (t, r) := float_text mant true sci false l' in (c :: t, r)
      else if ((code c =? 101) || (code c =? 69)) && mant && negb sci
           then let (t, r) := float_text mant dec true true l' in (c :: t, r)
      else if is_sign_char c && sg then let (t, r) := float_text mant dec sci false l' in (c :: t, r)
      else ([], l)
  end.
Definition number_text (l : list ascii) : list ascii * list ascii :=
  match l with
  | c :: l' => if is_sign_char c then let (t, r) := float_text false false false false l' in (c :: t, r)
               else float_text false false false false l
  | [] => ([], [])
  end.

(** [is >> x] for a [double x]: the value stored ([None]: untouched) and the stream. [strtod]
    gives for an accumulated text the value stored and whether the conversion failed. *)
Definition extract_double (strtod : list ascii -> double * bool) (s : istream) : option double * istream :=
  if negb (good s) then (None, set_fail s)
  else match drop_while isspace (buf s) with
       | [] => (None, IStream [] true true)
       | b => let (t, rest) := number_text b in
              let (x, bad) := strtod t in
              (Some x, IStream rest (match rest with [] => true | _ => false end) bad)
       end.
(** [is >> c] for a [char c]; [None]: untouched. *)
Definition extract_char_opt (s : istream) : option ascii * istream :=
  if negb (good s) then (None, set_fail s)
  else match drop_while isspace (buf s) with
       | [] => (None, IStream [] true true)
       | c :: b => (Some c, IStream b false false)
       end.

(** complex.hpp:231 *)
Definition starts_complex (c : Z) : bool :=
  ((48 <=? c) && (c <=? 57)) || (c =? 45) || (c =? 43) || (c =? 46).

(** complex.hpp:225-263; reading a variable that was left untouched is undefined. *)
Definition cx_extract (strtod : list ascii -> double * bool) (fuel : nat) (s0 : istream) (z : Complex)
  : outcome unit * (istream * Complex) :=
  match skip_blank fuel s0 with
  | Ok s =>
      (* the repeated peeks of one test see the same good stream *)
      let (c0, s1) := peek s in
      if negb (starts_complex c0) then (Throw WrongComplexLiteral, (s1, z)) else
      let (real, s2) := extract_double strtod s1 in
      let (c1, s3) := peek s2 in
      if c1 <=? 32 then
        match real with
        | Some x => (Ok tt, (s3, cx_of x))
        | None => (UB Indeterminate, (s3, z))
        end
      else if c1 =? 106 then
        let s4 := ignore s3 in
        let (c2, s5) := peek s4 in
        if c2 <=? 32 then
          match real with
          | Some x => (Ok tt, (s5, Cx d0 x))
          | None => (UB Indeterminate, (s5, z))
          end
        else (Throw WrongComplexLiteral, (s5, z))
      else
        let (imag, s4) := extract_double strtod s3 in
        let (c, s5) := extract_char_opt s4 in
        match c with
        | None => (UB Indeterminate, (s5, z))
        | Some c =>
            if negb (code c =? 106) then (Throw WrongComplexLiteral, (s5, z)) else
            let (c3, s6) := peek s5 in
            if 32 <? c3 then (Throw WrongComplexLiteral, (s6, z)) else
            match real, imag with
            | Some x, Some y => (Ok tt, (s6, Cx x y))
            | _, _ => (UB Indeterminate, (s6, z))
            end
        end
  | Throw e => (Throw e, (s0, z))
  | UB u => (UB u, (s0, z))
  | OutOfFuel => (OutOfFuel, (s0, z))
  end.

(** complex.hpp:268-275, for arbitrary [std::hash<double>] and word operations *)
Definition cx_hash (h : double -> Z) (lxor : Z -> Z -> Z) (shl1 : Z -> Z) (a : Complex) : Z :=
  lxor (h (re a)) (shl1 (h (im a))).

(** ** Reading loops of client code *)

(** [for (auto& x : xs) is >> x;] over [n] targets *)
Fixpoint cx_extract_all (strtod : list ascii -> double * bool) (fuel n : nat) (s : istream) : outcome (list Complex * istream) :=
  match n with
  | O => Ok ([], s)
  | S n' =>
      match cx_extract strtod fuel s cx_zero with
      | (Ok _, (s', x)) => r <- cx_extract_all strtod fuel n' s' ;; Ok (x :: fst r, snd r)
      | (Throw e, _) => Throw e
      | (UB u, _) => UB u
      | (OutOfFuel, _) => OutOfFuel
      end
  end.

(** [while (is >> z) out.push_back(z);] *)
Fixpoint cx_read_loop (strtod : list ascii -> double * bool) (fuel : nat) (s : istream) : outcome (list Complex) :=
  match fuel with
  | O => OutOfFuel
  | S n =>
      match cx_extract strtod fuel s cx_zero with
      | (Ok _, (s', x)) => if failbit s' then Ok [] else r <- cx_read_loop strtod n s' ;; Ok (x :: r)
      | (Throw e, _) => Throw e
      | (UB u, _) => UB u
      | (OutOfFuel, _) => OutOfFuel
      end
  end.
