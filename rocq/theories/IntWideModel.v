(** Class [Int] again, sources/int.hpp, with the loop counters as the [int]s they
    are in the code. Definitions only.

    IntModel.v counts digits with natural numbers. Here every [i + 1], [i + j],
    [i + j + 1] and [++i] on an [int] is undefined when it leaves the range of
    [int], and every conversion of a [size_t] to [int] keeps 32 bits. Nothing else
    differs: the digits, the accesses and the policies are those of IntModel.v. *)
From Coq Require Import ZArith List Bool Ascii.
From Verif Require Import Outcome IntModel.
Import ListNotations.
Open Scope Z_scope.

(** [int i = v.size() - 1; i >= 0; --i] for a vector of [n] elements: the number
    of values [i] takes, all below [n]. *)
Definition from_top (n : nat) : nat :=
  let i := wrap32 (Z.of_nat n - 1) in
  if i <? 0 then O else Z.to_nat (i + 1).

(** [i + 1] or [++i] on an [int] that is not negative. *)
Definition next (i : nat) : outcome nat :=
  k <- chk32 (Z.of_nat i + 1) ;; Ok (Z.to_nat k).

(** int.hpp:130-146 *)
Definition abs_cmp_w (x y : Int) : outcome Z :=
  let a := chunks x in
  let b := chunks y in
  if negb (Nat.eqb (length a) (length b))
  then Ok (if Nat.ltb (length b) (length a) then 1 else -1)
  else abs_cmp_loop (from_top (length a)) a b.

(** int.hpp:227-248 *)
Definition int_cmp_w (x y : Int) : outcome Z :=
  if negb (sign x =? sign y) then
    if sign x =? 1 then Ok 1
    else if sign x =? -1 then Ok (-1)
    else Ok (if sign y =? 1 then -1 else 1)
  else
    c <- abs_cmp_w x y ;;
    Ok (if 0 <=? sign x then c else - c).

(** [operator>=] derived from [operator<=>] *)
Definition int_ge_w (x y : Int) : outcome bool := c <- int_cmp_w x y ;; Ok (c >=? 0).

(** int.hpp:273-283: the sum is a double; converting one above INT_MAX is undefined. *)
Definition int_digits_w (x : Int) : outcome Z :=
  d <- int_digits x ;;
  if d <=? INT_MAX then Ok d else UB BadConversion.

(** int.hpp:81-85, 101-105 *)
Fixpoint scan_eq_w (fuel : nat) (v : list Z) (d : Z) (i : nat) : outcome nat :=
  match fuel with
  | O => OutOfFuel
  | S f => x <- vget v i ;; if x =? d then i1 <- next i ;; scan_eq_w f v d i1 else Ok i
  end.

(** int.hpp:76-95 *)
Definition abs_inc_w (x : Int) : outcome Int :=
  let v := chunks x ++ [0] in
  i <- scan_eq_w (S (length v)) v (BASE - 1) 0 ;;
  v1 <- vadd Strict v i 1 ;;
  v2 <- fill_below i v1 0 ;;
  Ok (trim (MkInt (sign x) v2)).

(** int.hpp:99-113 *)
Definition abs_dec_w (x : Int) : outcome Int :=
  let v := chunks x in
  i <- scan_eq_w (S (length v)) v 0 0 ;;
  v1 <- vadd Strict v i (-1) ;;
  v2 <- fill_below i v1 (BASE - 1) ;;
  Ok (trim (MkInt (sign x) v2)).

(** int.hpp:542-555 *)
Definition int_inc_w (x : Int) : outcome Int :=
  if sign x =? 0 then Ok (MkInt 1 (chunks x ++ [1]))
  else if sign x =? 1 then abs_inc_w x else abs_dec_w x.

(** int.hpp:558-571 *)
Definition int_dec_w (x : Int) : outcome Int :=
  if sign x =? 0 then Ok (MkInt (-1) (chunks x ++ [1]))
  else if sign x =? 1 then abs_dec_w x else abs_inc_w x.

(** int.hpp:361-366 *)
Fixpoint add_loop_w (p : policy) (n i : nat) (a b : list Z) : outcome (list Z) :=
  match n with
  | O => Ok a
  | S n' =>
      ai <- vget a i ;;
      bi <- vget b i ;;
      tmp <- chk32 (ai + bi) ;;
      a1 <- vset a i (Z.rem tmp BASE) ;;
      i1 <- next i ;;
      a2 <- vadd p a1 i1 (Z.quot tmp BASE) ;;
      add_loop_w p n' i1 a2 b
  end.

(** int.hpp:367-371 *)
Fixpoint add_carry_w (p : policy) (n i : nat) (a : list Z) : outcome (list Z) :=
  match n with
  | O => Ok a
  | S n' =>
      ai <- vget a i ;;
      if ai >=? BASE
      then i1 <- next i ;;
           a1 <- vadd p a i1 1 ;;
           a2 <- vset a1 i 0 ;;
           add_carry_w p n' i1 a2
      else Ok a
  end.

(** [for (int i = n; i < a.size() && ...]: a negative [i] is converted to a
    [size_t] that is not below any size, so the loop is skipped. *)
Definition from_size (n : nat) (loop : nat -> outcome (list Z)) (a : list Z) : outcome (list Z) :=
  let i := wrap32 (Z.of_nat n) in
  if i <? 0 then Ok a else loop (Z.to_nat i).

(** int.hpp:355-373 *)
Definition add_same_w (p : policy) (x y : Int) : outcome Int :=
  let b := chunks y in
  let a := resize (chunks x) (Nat.max (length (chunks x)) (length b) + 1) in
  a1 <- add_loop_w p (length b) 0 a b ;;
  a2 <- from_size (length b) (fun i => add_carry_w p (length a1 - i) i a1) a1 ;;
  Ok (trim (MkInt (sign x) a2)).

(** int.hpp:404-409 *)
Fixpoint sub_loop_w (p : policy) (n i : nat) (a b : list Z) : outcome (list Z) :=
  match n with
  | O => Ok a
  | S n' =>
      ai <- vget a i ;;
      bi <- vget b i ;;
      tmp <- chk32 (ai - bi) ;;
      m <- cycle_mod tmp BASE ;;
      a1 <- vset a i m ;;
      i1 <- next i ;;
      a2 <- vadd p a1 i1 (floor_div tmp BASE) ;;
      sub_loop_w p n' i1 a2 b
  end.

(** int.hpp:410-414 *)
Fixpoint sub_borrow_w (p : policy) (n i : nat) (a : list Z) : outcome (list Z) :=
  match n with
  | O => Ok a
  | S n' =>
      ai <- vget a i ;;
      if ai <? 0
      then i1 <- next i ;;
           a1 <- vadd p a i1 (-1) ;;
           a2 <- vset a1 i (BASE - 1) ;;
           sub_borrow_w p n' i1 a2
      else Ok a
  end.

(** int.hpp:393-416 *)
Definition sub_same_w (p : policy) (x y : Int) : outcome Int :=
  c <- abs_cmp_w x y ;;
  let '(s, a, b) :=
    if c =? -1 then (- sign x, chunks y, chunks x) else (sign x, chunks x, chunks y) in
  a1 <- sub_loop_w p (length b) 0 a b ;;
  a2 <- from_size (length b) (fun i => sub_borrow_w p (length a1 - i) i a1) a1 ;;
  Ok (trim (MkInt s a2)).

(** int.hpp:339-374, 377-417, as [add_sub] in IntModel.v *)
Fixpoint add_sub_w (p : policy) (depth : nat) (minus : bool) (x y : Int) : outcome Int :=
  match depth with
  | O => OutOfFuel
  | S d =>
      if minus then
        if (sign x =? 0) || (sign y =? 0) then Ok (if sign x =? 0 then int_neg y else x)
        else if negb (sign x =? sign y) then add_sub_w p d false x (int_neg y)
        else sub_same_w p x y
      else
        if (sign x =? 0) || (sign y =? 0) then Ok (if sign x =? 0 then y else x)
        else if negb (sign x =? sign y) then add_sub_w p d true x (int_neg y)
        else add_same_w p x y
  end.

(** int.hpp:339-374, 598-601 *)
Definition int_add_w (p : policy) (x y : Int) : outcome Int := add_sub_w p 2 false x y.
(** int.hpp:377-417, 604-607 *)
Definition int_sub_w (p : policy) (x y : Int) : outcome Int := add_sub_w p 2 true x y.

(** int.hpp:439-444 *)
Fixpoint mul_inner_w (p : policy) (n i j : nat) (ai : Z) (b c : list Z) : outcome (list Z) :=
  match n with
  | O => Ok c
  | S n' =>
      bj <- vget b j ;;
      ab <- chk32 (ai * bj) ;;
      k <- chk32 (Z.of_nat i + Z.of_nat j) ;;
      let ij := Z.to_nat k in
      c1 <- vadd p c ij ab ;;
      cij <- vget c1 ij ;;
      ij1 <- next ij ;;
      c2 <- vadd p c1 ij1 (Z.quot cij BASE) ;;
      cij' <- vget c2 ij ;;
      c3 <- vset c2 ij (Z.rem cij' BASE) ;;
      j1 <- next j ;;
      mul_inner_w p n' i j1 ai b c3
  end.

(** int.hpp:437-445 *)
Fixpoint mul_outer_w (p : policy) (n i : nat) (a b c : list Z) : outcome (list Z) :=
  match n with
  | O => Ok c
  | S n' =>
      ai <- vget a i ;;
      c1 <- mul_inner_w p (length b) i 0 ai b c ;;
      i1 <- next i ;;
      mul_outer_w p n' i1 a b c1
  end.

(** int.hpp:420-448, 610-613 *)
Definition int_mul_w (p : policy) (x y : Int) : outcome Int :=
  if (sign x =? 0) || (sign y =? 0) then int_of_int 0
  else
    let a := chunks x in
    let b := chunks y in
    let s := if sign x =? sign y then 1 else -1 in
    c <- mul_outer_w p (length a) 0 a b (repeat 0 (length a + length b)) ;;
    Ok (trim (MkInt s c)).

(** int.hpp:488-492 *)
Fixpoint div_digit_w (p : policy) (fuel : nat) (this tmp : Int) (i : nat) (result : list Z)
  : outcome (Int * list Z) :=
  match fuel with
  | O => OutOfFuel
  | S f =>
      ge <- int_ge_w this tmp ;;
      if ge
      then r1 <- vadd p result i 1 ;;
           t1 <- int_sub_w p this tmp ;;
           div_digit_w p f t1 tmp i r1
      else Ok (this, result)
  end.

(** int.hpp:481-493 *)
Fixpoint div_loop_w (p : policy) (n : nat) (this tmp : Int) (result : list Z)
  : outcome (Int * list Z) :=
  match n with
  | O => Ok (this, result)
  | S i =>
      tc <- erase_first (chunks tmp) ;;
      let tmp1 := MkInt (sign tmp) tc in
      tr <- div_digit_w p 10 this tmp1 i result ;;
      div_loop_w p i (fst tr) tmp1 (snd tr)
  end.

(** int.hpp:465, 513: [int size = chunks_.size() - rhs.chunks_.size() + 1]; a
    negative [size] makes the vector constructor throw. *)
Definition quot_size (x y : Int) : outcome nat :=
  let s := wrap32 (Z.of_nat (length (chunks x)) - Z.of_nat (length (chunks y)) + 1) in
  if s <? 0 then Throw StdLengthError else Ok (Z.to_nat s).

(** int.hpp:451-496, 616-619 *)
Definition int_div_w (p : policy) (this rhs : Int) : outcome Int :=
  _ <- check_zero (sign rhs) ;;
  d1 <- int_digits_w this ;;
  d2 <- int_digits_w rhs ;;
  if d1 <? d2 then int_of_int 0
  else
    size <- quot_size this rhs ;;
    let tmp := MkInt 1 (repeat 0 size ++ chunks rhs) in
    let rs := if sign this =? sign rhs then 1 else -1 in
    tr <- div_loop_w p size (MkInt 1 (chunks this)) tmp (repeat 0 size) ;;
    Ok (trim (MkInt rs (snd tr))).

(** int.hpp:532-535 *)
Fixpoint mod_digit_w (p : policy) (fuel : nat) (this tmp : Int) : outcome Int :=
  match fuel with
  | O => OutOfFuel
  | S f =>
      ge <- int_ge_w this tmp ;;
      if ge
      then t1 <- int_sub_w p this tmp ;; mod_digit_w p f t1 tmp
      else Ok this
  end.

(** int.hpp:525-536 *)
Fixpoint mod_loop_w (p : policy) (n : nat) (this tmp : Int) : outcome Int :=
  match n with
  | O => Ok this
  | S n' =>
      tc <- erase_first (chunks tmp) ;;
      let tmp1 := MkInt (sign tmp) tc in
      t1 <- mod_digit_w p 10 this tmp1 ;;
      mod_loop_w p n' t1 tmp1
  end.

(** int.hpp:499-539, 622-625 *)
Definition int_mod_w (p : policy) (this rhs : Int) : outcome Int :=
  _ <- check_zero (sign rhs) ;;
  d1 <- int_digits_w this ;;
  d2 <- int_digits_w rhs ;;
  if d1 <? d2 then Ok this
  else
    size <- quot_size this rhs ;;
    let tmp := MkInt 1 (repeat 0 size ++ chunks rhs) in
    t <- mod_loop_w p size (MkInt 1 (chunks this)) tmp ;;
    Ok (trim t).

(** int.hpp:680-688 *)
Definition int_to_integer_w (t : ctype) (x : Int) : outcome Z :=
  r <- to_integer_loop t (from_top (length (chunks x))) (chunks x) 0 ;;
  m <- carith (promoted t) (r * sign x) ;;
  Ok (conv t m).

(** int.hpp:173-203: [const int len = std::strlen(chars)]. A negative [len] passes
    [is_integer], whose loop is then empty, and [chars + len] is before the text. *)
Definition int_of_chars_w (cs : list ascii) : outcome Int :=
  let len := wrap32 (Z.of_nat (length cs)) in
  if len <? 0 then UB InvalidRange
  else int_of_chars (firstn (Z.to_nat len) cs).
