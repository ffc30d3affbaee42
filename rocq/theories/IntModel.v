(** Model of class [Int], sources/int.hpp. Definitions only.

    Digits ([chunks_], a [std::vector<int>], little endian) are a [list Z].
    Element access goes through [vget]/[vset]/[vadd], which are [UB] outside
    the vector. The number of digits is assumed to fit in [int] (the C++ code
    indexes with [int i]); no other bound is placed on it. *)
From Coq Require Import ZArith List Bool Ascii.
From Verif Require Import Outcome.
Import ListNotations.
Open Scope Z_scope.

(** int.hpp:19 *)
Definition BASE : Z := 10.
(** int.hpp:22 *)
Definition DIGITS_PER_CHUNK : Z := 1.

(** int.hpp:25, 33: the two data members. *)
Record Int : Type := MkInt { sign : Z; chunks : list Z }.

(** How an access [v[v.size()] += 0] is treated: [Strict] is the C++ standard
    (undefined); [Benign] lets exactly this no-op read-modify-write pass. *)
Inductive policy : Set := Strict | Benign.

(** ** std::vector<int> element access *)

(** [v[i]] as an rvalue *)
Definition vget (v : list Z) (i : nat) : outcome Z :=
  match nth_error v i with Some x => Ok x | None => UB OutOfBounds end.

Fixpoint upd (v : list Z) (i : nat) (x : Z) : list Z :=
  match v, i with
  | [], _ => []
  | _ :: v', O => x :: v'
  | y :: v', S i' => y :: upd v' i' x
  end.

(** [v[i] = x] *)
Definition vset (v : list Z) (i : nat) (x : Z) : outcome (list Z) :=
  match nth_error v i with Some _ => Ok (upd v i x) | None => UB OutOfBounds end.

(** [v[i] += d]; the sum is an [int]. *)
Definition vadd (p : policy) (v : list Z) (i : nat) (d : Z) : outcome (list Z) :=
  match nth_error v i with
  | Some x => y <- chk32 (x + d) ;; Ok (upd v i y)
  | None =>
      match p with
      | Strict => UB OutOfBounds
      | Benign => if Nat.eqb i (length v) && (d =? 0) then Ok v else UB OutOfBounds
      end
  end.

(** [v.resize(n)] with zero fill *)
Definition resize (v : list Z) (n : nat) : list Z :=
  firstn n v ++ repeat 0 (n - length v).

(** ** Private helpers *)

(** int.hpp:38-42: skip zeros from the most significant end. *)
Fixpoint skip_zeros (r : list Z) : list Z :=
  match r with
  | d :: r' => if d =? 0 then skip_zeros r' else r
  | [] => []
  end.

(** int.hpp:36-51 *)
Definition trim (x : Int) : Int :=
  let c := rev (skip_zeros (rev (chunks x))) in
  MkInt (match c with [] => 0 | _ => sign x end) c.

Definition code (c : ascii) : Z := Z.of_N (N_of_ascii c).
Definition is_sign_char (c : ascii) : bool := (code c =? 43) || (code c =? 45).
Definition is_digit_char (c : ascii) : bool := (48 <=? code c) && (code c <=? 57).

(** int.hpp:54-72. [cs] are the characters before the terminating null. *)
Definition is_integer (cs : list ascii) : bool :=
  match cs with
  | [] => false
  | c :: cs' =>
      if is_sign_char c
      then match cs' with [] => false | _ => forallb is_digit_char cs' end
      else forallb is_digit_char cs
  end.

(** int.hpp:82-85: [while (chunks_[i] == BASE - 1) ++i;] *)
Fixpoint scan_eq (fuel : nat) (v : list Z) (d : Z) (i : nat) : outcome nat :=
  match fuel with
  | O => OutOfFuel
  | S f => x <- vget v i ;; if x =? d then scan_eq f v d (S i) else Ok i
  end.

(** int.hpp:87-90, 107-110: [while (i != 0) chunks_[--i] = d;] *)
Fixpoint fill_below (i : nat) (v : list Z) (d : Z) : outcome (list Z) :=
  match i with
  | O => Ok v
  | S i' => v1 <- vset v i' d ;; fill_below i' v1 d
  end.

(** int.hpp:76-95. The scan reads at most [size + 1] cells before it leaves the vector. *)
Definition abs_inc (x : Int) : outcome Int :=
  let v := chunks x ++ [0] in
  i <- scan_eq (S (length v)) v (BASE - 1) 0 ;;
  v1 <- vadd Strict v i 1 ;;
  v2 <- fill_below i v1 0 ;;
  Ok (trim (MkInt (sign x) v2)).

(** int.hpp:99-113 *)
Definition abs_dec (x : Int) : outcome Int :=
  let v := chunks x in
  i <- scan_eq (S (length v)) v 0 0 ;;
  v1 <- vadd Strict v i (-1) ;;
  v2 <- fill_below i v1 (BASE - 1) ;;
  Ok (trim (MkInt (sign x) v2)).

(** int.hpp:117-120, [std::floor(double(a) / double(b))]; that the double
    computation is the integer floor for all [int] arguments is proved in
    FloatFacts.v (floor_quot). *)
Definition floor_div (a b : Z) : Z := a / b.

(** int.hpp:124-127 *)
Definition cycle_mod (a b : Z) : outcome Z := m <- chk32 (floor_div a b * b) ;; chk32 (a - m).

(** int.hpp:137-145; [n] is [i + 1]. *)
Fixpoint abs_cmp_loop (n : nat) (a b : list Z) : outcome Z :=
  match n with
  | O => Ok 0
  | S i =>
      ai <- vget a i ;;
      bi <- vget b i ;;
      if negb (ai =? bi) then Ok (if ai >? bi then 1 else -1)
      else abs_cmp_loop i a b
  end.

(** int.hpp:130-146 *)
Definition abs_cmp (x y : Int) : outcome Z :=
  let a := chunks x in
  let b := chunks y in
  if negb (Nat.eqb (length a) (length b))
  then Ok (if Nat.ltb (length b) (length a) then 1 else -1)
  else abs_cmp_loop (length a) a b.

(** ** Constructors *)

(** int.hpp:165-169; an [int] has at most 10 digits, so fuel 11 suffices. *)
Fixpoint push_digits (fuel : nat) (n : Z) (acc : list Z) : outcome (list Z) :=
  match fuel with
  | O => OutOfFuel
  | S f => if n >? 0 then push_digits f (Z.quot n BASE) (acc ++ [Z.rem n BASE]) else Ok acc
  end.

(** int.hpp:161-170. [std::abs(INT_MIN)] is undefined. *)
Definition int_of_int (n : Z) : outcome Int :=
  let s := if n =? 0 then 0 else if n >? 0 then 1 else -1 in
  a <- chk32 (Z.abs n) ;;
  c <- push_digits 11 a [] ;;
  Ok (MkInt s c).

(** int.hpp:191-200: [i] is the loop counter, [total] is [digits.size()]. *)
Fixpoint fill_chunks (ds : list ascii) (i total : Z) (chunk : Z) (idx : Z) (v : list Z)
  : outcome (list Z) :=
  match ds with
  | [] => Ok v
  | d :: ds' =>
      let chunk1 := chunk * 10 + (code d - 48) in
      if Z.rem (i + 1) DIGITS_PER_CHUNK =? Z.rem total DIGITS_PER_CHUNK
      then v1 <- vset v (Z.to_nat idx) chunk1 ;;
           fill_chunks ds' (i + 1) total 0 (idx - 1) v1
      else fill_chunks ds' (i + 1) total chunk1 idx v
  end.

(** int.hpp:173-203. The string is the characters before the null. *)
Definition int_of_chars (cs : list ascii) : outcome Int :=
  if negb (is_integer cs) then Throw WrongIntegerLiteral
  else
    match cs with
    | [] => Throw WrongIntegerLiteral
    | c :: cs' =>
        let s := if code c =? 45 then -1 else 1 in
        let ds := if is_sign_char c then cs' else cs in
        let chunks_len := length ds in
        v <- fill_chunks ds 0 (Z.of_nat (length ds)) 0 (Z.of_nat chunks_len - 1)
               (repeat 0 chunks_len) ;;
        Ok (trim (MkInt s v))
    end.

(** int.hpp:209-214 and 258-266: result and moved-from source. A moved-from
    [std::vector] is taken to be empty (guaranteed for construction; for
    assignment, what every standard library does with [std::allocator]). *)
Definition int_move (that : Int) : Int * Int :=
  (that, MkInt 0 []).

(** ** Comparison *)

Fixpoint chunks_eqb (a b : list Z) : bool :=
  match a, b with
  | [], [] => true
  | x :: a', y :: b' => (x =? y) && chunks_eqb a' b'
  | _, _ => false
  end.

(** int.hpp:221-224 *)
Definition int_eqb (x y : Int) : bool :=
  (sign x =? sign y) && chunks_eqb (chunks x) (chunks y).

(** int.hpp:227-248 *)
Definition int_cmp (x y : Int) : outcome Z :=
  if negb (sign x =? sign y) then
    if sign x =? 1 then Ok 1
    else if sign x =? -1 then Ok (-1)
    else Ok (if sign y =? 1 then -1 else 1)
  else
    c <- abs_cmp x y ;;
    Ok (if 0 <=? sign x then c else - c).

(** The operators the compiler derives from [operator<=>]. *)
Definition int_lt (x y : Int) : outcome bool := c <- int_cmp x y ;; Ok (c <? 0).
Definition int_le (x y : Int) : outcome bool := c <- int_cmp x y ;; Ok (c <=? 0).
Definition int_gt (x y : Int) : outcome bool := c <- int_cmp x y ;; Ok (c >? 0).
Definition int_ge (x y : Int) : outcome bool := c <- int_cmp x y ;; Ok (c >=? 0).

(** ** Examination *)

(** [std::floor(std::log10(d))] for an [int] d >= 1; fuel 10 covers all [int]s. *)
Fixpoint floor_log10 (fuel : nat) (d : Z) : Z :=
  match fuel with
  | O => 0
  | S f => if d <? 10 then 0 else 1 + floor_log10 f (d / 10)
  end.

(** int.hpp:273-283. log10(0) is -infinity, whose conversion to [int] is undefined. *)
Definition int_digits (x : Int) : outcome Z :=
  match chunks x with
  | [] => Ok 0
  | _ =>
      let back := last (chunks x) 0 in
      if back <=? 0 then UB BadConversion
      else Ok ((Z.of_nat (length (chunks x)) - 1) * DIGITS_PER_CHUNK + floor_log10 10 back + 1)
  end.

(** int.hpp:286-289 *)
Definition is_zero (x : Int) : bool := sign x =? 0.
(** int.hpp:292-295 *)
Definition is_positive (x : Int) : bool := sign x =? 1.
(** int.hpp:298-301 *)
Definition is_negative (x : Int) : bool := sign x =? -1.
(** int.hpp:304-307 *)
Definition is_even (x : Int) : outcome bool :=
  if is_zero x then Ok true else d <- vget (chunks x) 0 ;; Ok (Z.land d 1 =? 0).
(** int.hpp:310-313 *)
Definition is_odd (x : Int) : outcome bool :=
  if is_zero x then Ok false else d <- vget (chunks x) 0 ;; Ok (Z.land d 1 =? 1).

(** ** Unary operators *)

(** int.hpp:578-581 *)
Definition int_pos (x : Int) : Int := x.
(** int.hpp:584-589 *)
Definition int_neg (x : Int) : Int := MkInt (- sign x) (chunks x).
(** int.hpp:592-595 *)
Definition int_abs (x : Int) : Int := if sign x =? -1 then int_neg x else x.

(** ** Addition and subtraction *)

(** int.hpp:361-366; [n] iterations remain, [i] is the counter. *)
Fixpoint add_loop (p : policy) (n i : nat) (a b : list Z) : outcome (list Z) :=
  match n with
  | O => Ok a
  | S n' =>
      ai <- vget a i ;;
      bi <- vget b i ;;
      tmp <- chk32 (ai + bi) ;;
      a1 <- vset a i (Z.rem tmp BASE) ;;
      a2 <- vadd p a1 (S i) (Z.quot tmp BASE) ;;
      add_loop p n' (S i) a2 b
  end.

(** int.hpp:367-371; [n] is [a.size() - i]. *)
Fixpoint add_carry (p : policy) (n i : nat) (a : list Z) : outcome (list Z) :=
  match n with
  | O => Ok a
  | S n' =>
      ai <- vget a i ;;
      if ai >=? BASE
      then a1 <- vadd p a (S i) 1 ;;
           a2 <- vset a1 i 0 ;;
           add_carry p n' (S i) a2
      else Ok a
  end.

(** int.hpp:355-373: both signs equal and nonzero, distinct objects. *)
Definition add_same (p : policy) (x y : Int) : outcome Int :=
  let b := chunks y in
  let a := resize (chunks x) (Nat.max (length (chunks x)) (length b) + 1) in
  a1 <- add_loop p (length b) 0 a b ;;
  a2 <- add_carry p (length a1 - length b) (length b) a1 ;;
  Ok (trim (MkInt (sign x) a2)).

(** int.hpp:404-409 *)
Fixpoint sub_loop (p : policy) (n i : nat) (a b : list Z) : outcome (list Z) :=
  match n with
  | O => Ok a
  | S n' =>
      ai <- vget a i ;;
      bi <- vget b i ;;
      tmp <- chk32 (ai - bi) ;;
      m <- cycle_mod tmp BASE ;;
      a1 <- vset a i m ;;
      a2 <- vadd p a1 (S i) (floor_div tmp BASE) ;;
      sub_loop p n' (S i) a2 b
  end.

(** int.hpp:410-414 *)
Fixpoint sub_borrow (p : policy) (n i : nat) (a : list Z) : outcome (list Z) :=
  match n with
  | O => Ok a
  | S n' =>
      ai <- vget a i ;;
      if ai <? 0
      then a1 <- vadd p a (S i) (-1) ;;
           a2 <- vset a1 i (BASE - 1) ;;
           sub_borrow p n' (S i) a2
      else Ok a
  end.

(** int.hpp:393-416: both signs equal and nonzero. [rhs.chunks_] is copied
    before [*this] changes, so the code is the same when [rhs] is [*this]. *)
Definition sub_same (p : policy) (x y : Int) : outcome Int :=
  c <- abs_cmp x y ;;
  let '(s, a, b) :=
    if c =? -1 then (- sign x, chunks y, chunks x) else (sign x, chunks x, chunks y) in
  a1 <- sub_loop p (length b) 0 a b ;;
  a2 <- sub_borrow p (length a1 - length b) (length b) a1 ;;
  Ok (trim (MkInt s a2)).

(** int.hpp:339-374 ([minus = false]) and 377-417 ([minus = true]): the two
    operators call each other when the signs differ; [depth] bounds that
    mutual recursion. *)
Fixpoint add_sub (p : policy) (depth : nat) (minus : bool) (x y : Int) : outcome Int :=
  match depth with
  | O => OutOfFuel
  | S d =>
      if minus then
        if (sign x =? 0) || (sign y =? 0) then Ok (if sign x =? 0 then int_neg y else x)
        else if negb (sign x =? sign y) then add_sub p d false x (int_neg y)
        else sub_same p x y
      else
        if (sign x =? 0) || (sign y =? 0) then Ok (if sign x =? 0 then y else x)
        else if negb (sign x =? sign y) then add_sub p d true x (int_neg y)
        else add_same p x y
  end.

(** int.hpp:339-374, [x += y] with [y] another object: the new [x]. *)
Definition int_add_assign (p : policy) (x y : Int) : outcome Int := add_sub p 2 false x y.
(** int.hpp:377-417, [x -= y]: the new [x]. *)
Definition int_sub_assign (p : policy) (x y : Int) : outcome Int := add_sub p 2 true x y.

(** int.hpp:361-366 when [rhs] is [*this]: [b] is the vector being modified,
    and [b.size()] is its size after the [resize]. *)
Fixpoint add_loop_self (p : policy) (n i : nat) (a : list Z) : outcome (list Z) :=
  match n with
  | O => Ok a
  | S n' =>
      ai <- vget a i ;;
      bi <- vget a i ;;
      tmp <- chk32 (ai + bi) ;;
      a1 <- vset a i (Z.rem tmp BASE) ;;
      a2 <- vadd p a1 (S i) (Z.quot tmp BASE) ;;
      add_loop_self p n' (S i) a2
  end.

(** int.hpp:339-374, [x += x]. *)
Definition int_add_assign_self (p : policy) (x : Int) : outcome Int :=
  if sign x =? 0 then Ok x
  else
    let a := resize (chunks x) (length (chunks x) + 1) in
    a1 <- add_loop_self p (length a) 0 a ;;
    a2 <- add_carry p (length a1 - length a) (length a) a1 ;;
    Ok (trim (MkInt (sign x) a2)).

(** ** Multiplication *)

(** int.hpp:439-444 *)
Fixpoint mul_inner (p : policy) (n i j : nat) (ai : Z) (b c : list Z) : outcome (list Z) :=
  match n with
  | O => Ok c
  | S n' =>
      bj <- vget b j ;;
      ab <- chk32 (ai * bj) ;;
      c1 <- vadd p c (i + j) ab ;;
      cij <- vget c1 (i + j) ;;
      c2 <- vadd p c1 (i + j + 1) (Z.quot cij BASE) ;;
      cij' <- vget c2 (i + j) ;;
      c3 <- vset c2 (i + j) (Z.rem cij' BASE) ;;
      mul_inner p n' i (S j) ai b c3
  end.

(** int.hpp:437-445 *)
Fixpoint mul_outer (p : policy) (n i : nat) (a b c : list Z) : outcome (list Z) :=
  match n with
  | O => Ok c
  | S n' =>
      ai <- vget a i ;;
      c1 <- mul_inner p (length b) i 0 ai b c ;;
      mul_outer p n' (S i) a b c1
  end.

(** int.hpp:420-448. The operands are only read, so [x *= x] is the same code. *)
Definition int_mul_assign (p : policy) (x y : Int) : outcome Int :=
  if (sign x =? 0) || (sign y =? 0) then int_of_int 0
  else
    let a := chunks x in
    let b := chunks y in
    let s := if sign x =? sign y then 1 else -1 in
    c <- mul_outer p (length a) 0 a b (repeat 0 (length a + length b)) ;;
    Ok (trim (MkInt s c)).

(** ** Division *)

(** int.hpp:486, 530: [tmp.chunks_.erase(tmp.chunks_.begin())] *)
Definition erase_first (v : list Z) : outcome (list Z) :=
  match v with [] => UB InvalidRange | _ :: v' => Ok v' end.

(** int.hpp:488-492: [while ( *this >= tmp) { result.chunks_[i]++; *this -= tmp; }].
    Fuel 10 allows nine iterations and the final test. *)
Fixpoint div_digit (p : policy) (fuel : nat) (this tmp : Int) (i : nat) (result : list Z)
  : outcome (Int * list Z) :=
  match fuel with
  | O => OutOfFuel
  | S f =>
      ge <- int_ge this tmp ;;
      if ge
      then r1 <- vadd p result i 1 ;;
           t1 <- int_sub_assign p this tmp ;;
           div_digit p f t1 tmp i r1
      else Ok (this, result)
  end.

(** int.hpp:481-493; [n] is [i + 1]. *)
Fixpoint div_loop (p : policy) (n : nat) (this tmp : Int) (result : list Z)
  : outcome (Int * list Z) :=
  match n with
  | O => Ok (this, result)
  | S i =>
      tc <- erase_first (chunks tmp) ;;
      let tmp1 := MkInt (sign tmp) tc in
      tr <- div_digit p 10 this tmp1 i result ;;
      div_loop p i (fst tr) tmp1 (snd tr)
  end.

(** int.hpp:456-495, after the zero check. All reads of [rhs] happen before
    [*this] changes, so [x /= x] is the same code. *)
Definition div_core (p : policy) (this rhs : Int) : outcome Int :=
  d1 <- int_digits this ;;
  d2 <- int_digits rhs ;;
  if d1 <? d2 then int_of_int 0
  else
    let size := (length (chunks this) - length (chunks rhs) + 1)%nat in
    let tmp := MkInt 1 (repeat 0 size ++ chunks rhs) in
    let rs := if sign this =? sign rhs then 1 else -1 in
    tr <- div_loop p size (MkInt 1 (chunks this)) tmp (repeat 0 size) ;;
    Ok (trim (MkInt rs (snd tr))).

(** int.hpp:451-496: outcome and the object left behind. *)
Definition int_div_assign (p : policy) (this rhs : Int) : outcome unit * Int :=
  match check_zero (sign rhs) with
  | Ok _ =>
      match div_core p this rhs with
      | Ok r => (Ok tt, r)
      | Throw e => (Throw e, this)
      | UB u => (UB u, this)
      | OutOfFuel => (OutOfFuel, this)
      end
  | Throw e => (Throw e, this)
  | UB u => (UB u, this)
  | OutOfFuel => (OutOfFuel, this)
  end.

(** int.hpp:532-535 *)
Fixpoint mod_digit (p : policy) (fuel : nat) (this tmp : Int) : outcome Int :=
  match fuel with
  | O => OutOfFuel
  | S f =>
      ge <- int_ge this tmp ;;
      if ge
      then t1 <- int_sub_assign p this tmp ;; mod_digit p f t1 tmp
      else Ok this
  end.

(** int.hpp:525-536; [n] iterations remain. *)
Fixpoint mod_loop (p : policy) (n : nat) (this tmp : Int) : outcome Int :=
  match n with
  | O => Ok this
  | S n' =>
      tc <- erase_first (chunks tmp) ;;
      let tmp1 := MkInt (sign tmp) tc in
      t1 <- mod_digit p 10 this tmp1 ;;
      mod_loop p n' t1 tmp1
  end.

(** int.hpp:504-538, after the zero check; [x %= x] is the same code. *)
Definition mod_core (p : policy) (this rhs : Int) : outcome Int :=
  d1 <- int_digits this ;;
  d2 <- int_digits rhs ;;
  if d1 <? d2 then Ok this
  else
    let size := (length (chunks this) - length (chunks rhs) + 1)%nat in
    let tmp := MkInt 1 (repeat 0 size ++ chunks rhs) in
    t <- mod_loop p size (MkInt 1 (chunks this)) tmp ;;
    Ok (trim t).

(** int.hpp:499-539 *)
Definition int_mod_assign (p : policy) (this rhs : Int) : outcome unit * Int :=
  match check_zero (sign rhs) with
  | Ok _ =>
      match mod_core p this rhs with
      | Ok r => (Ok tt, r)
      | Throw e => (Throw e, this)
      | UB u => (UB u, this)
      | OutOfFuel => (OutOfFuel, this)
      end
  | Throw e => (Throw e, this)
  | UB u => (UB u, this)
  | OutOfFuel => (OutOfFuel, this)
  end.

(** ** Increment, decrement *)

(** int.hpp:542-555 *)
Definition int_inc (x : Int) : outcome Int :=
  if sign x =? 0 then Ok (MkInt 1 (chunks x ++ [1]))
  else if sign x =? 1 then abs_inc x else abs_dec x.

(** int.hpp:558-571 *)
Definition int_dec (x : Int) : outcome Int :=
  if sign x =? 0 then Ok (MkInt (-1) (chunks x ++ [1]))
  else if sign x =? 1 then abs_dec x else abs_inc x.

(** ** Binary operators: a copy of [*this], then the compound operator *)

(** int.hpp:598-601 *)
Definition int_add (p : policy) (x y : Int) : outcome Int := int_add_assign p x y.
(** int.hpp:604-607 *)
Definition int_sub (p : policy) (x y : Int) : outcome Int := int_sub_assign p x y.
(** int.hpp:610-613 *)
Definition int_mul (p : policy) (x y : Int) : outcome Int := int_mul_assign p x y.
(** int.hpp:616-619 *)
Definition int_div (p : policy) (x y : Int) : outcome Int :=
  match int_div_assign p x y with
  | (Ok _, r) => Ok r
  | (Throw e, _) => Throw e
  | (UB u, _) => UB u
  | (OutOfFuel, _) => OutOfFuel
  end.
(** int.hpp:622-625 *)
Definition int_mod (p : policy) (x y : Int) : outcome Int :=
  match int_mod_assign p x y with
  | (Ok _, r) => Ok r
  | (Throw e, _) => Throw e
  | (UB u, _) => UB u
  | (OutOfFuel, _) => OutOfFuel
  end.

(** ** Number theory *)

(** int.hpp:637-640 *)
Fixpoint factorial_loop (p : policy) (fuel : nat) (i result : Int) : outcome Int :=
  match fuel with
  | O => OutOfFuel
  | S f =>
      if is_positive i
      then r1 <- int_mul_assign p result i ;;
           i1 <- abs_dec i ;;
           factorial_loop p f i1 r1
      else Ok result
  end.

(** int.hpp:628-643 *)
Definition int_factorial (p : policy) (fuel : nat) (x : Int) : outcome Int :=
  if sign x =? -1 then Throw NegativeFactorial
  else one <- int_of_int 1 ;; factorial_loop p fuel x one.

(** int.hpp:323-329 *)
Fixpoint prime_loop (p : policy) (fuel : nat) (x i : Int) : outcome bool :=
  match fuel with
  | O => OutOfFuel
  | S f =>
      sq <- int_mul p i i ;;
      le <- int_le sq x ;;
      if le then
        r <- int_mod p x i ;;
        if is_zero r then Ok false
        else i1 <- abs_inc i ;; prime_loop p f x i1
      else Ok true
  end.

(** int.hpp:316-332 *)
Definition int_is_prime (p : policy) (fuel : nat) (x : Int) : outcome bool :=
  one <- int_of_int 1 ;;
  le <- int_le x one ;;
  if le then Ok false
  else two <- int_of_int 2 ;; prime_loop p fuel x two.

(** int.hpp:662-672: [while (true)]. The inner test gets the same fuel. *)
Fixpoint next_prime_loop (p : policy) (fuel : nat) (ifuel : nat) (prime : Int) : outcome Int :=
  match fuel with
  | O => OutOfFuel
  | S f =>
      p1 <- abs_inc prime ;;
      p2 <- abs_inc p1 ;;
      b <- int_is_prime p ifuel p2 ;;
      if b then Ok p2 else next_prime_loop p f ifuel p2
  end.

(** int.hpp:646-675 *)
Definition int_next_prime (p : policy) (fuel : nat) (x : Int) : outcome Int :=
  two <- int_of_int 2 ;;
  lt <- int_lt x two ;;
  if lt then int_of_int 2
  else
    ev <- is_even x ;;
    start <- (if ev then abs_dec x else Ok x) ;;
    next_prime_loop p fuel fuel start.

(** int.hpp:719-723 *)
Fixpoint sqrt_loop (p : policy) (fuel : nat) (n cur pre : Int) : outcome Int :=
  match fuel with
  | O => OutOfFuel
  | S f =>
      if negb (int_eqb cur pre)
      then q <- int_div p n cur ;;
           s <- int_add p cur q ;;
           two <- int_of_int 2 ;;
           c <- int_div p s two ;;
           sqrt_loop p f n c cur
      else Ok cur
  end.

(** int.hpp:695-726 *)
Definition int_sqrt (p : policy) (fuel : nat) (n : Int) : outcome Int :=
  if sign n =? -1 then Throw NegativeSqrt
  else if is_zero n then int_of_int 0
  else
    four <- int_of_int 4 ;;
    lt <- int_lt n four ;;
    if lt then int_of_int 1
    else
      let cur := MkInt 1 (repeat 0 (Nat.div (length (chunks n)) 2) ++ [1]) in
      zero <- int_of_int 0 ;;
      sqrt_loop p fuel n cur zero.

(** int.hpp:755-763 *)
Fixpoint pow_loop (p : policy) (fuel : nat) (m num n result : Int) : outcome Int :=
  match fuel with
  | O => OutOfFuel
  | S f =>
      if negb (is_zero n)
      then
        odd <- is_odd n ;;
        r1 <- (if odd
               then t <- int_mul p result num ;;
                    (if is_zero m then Ok t else int_mod p t m)
               else Ok result) ;;
        sq <- int_mul p num num ;;
        num1 <- (if is_zero m then Ok sq else int_mod p sq m) ;;
        two <- int_of_int 2 ;;
        n1 <- int_div p n two ;;
        pow_loop p f m num1 n1 r1
      else Ok result
  end.

(** int.hpp:729-766; the default modulus is [Int(0)]. *)
Definition int_pow (p : policy) (fuel : nat) (base exp m : Int) : outcome Int :=
  d <- int_digits base ;;
  one_abs <- (if d =? 1 then c0 <- vget (chunks base) 0 ;; Ok (c0 =? 1) else Ok false) ;;
  if one_abs
  then
    odd <- (if sign base =? -1 then is_odd exp else Ok false) ;;
    int_of_int (if odd then -1 else 1)
  else if is_negative exp
  then if is_zero base then Throw MathDomain else int_of_int 0
  else
    one <- int_of_int 1 ;;
    pow_loop p fuel m base exp one.

(** int.hpp:783-787 *)
Fixpoint log_loop (p : policy) (fuel : nat) (value base result : Int) : outcome Int :=
  match fuel with
  | O => OutOfFuel
  | S f =>
      if negb (is_zero value)
      then r1 <- int_inc result ;;
           v1 <- int_div p value base ;;
           log_loop p f v1 base r1
      else Ok result
  end.

(** int.hpp:769-790 *)
Definition int_log (p : policy) (fuel : nat) (n base : Int) : outcome Int :=
  two <- int_of_int 2 ;;
  small <- (if sign n <=? 0 then Ok true else int_lt base two) ;;
  if small then Throw MathDomain
  else
    ten <- int_of_int 10 ;;
    if int_eqb base ten
    then d <- int_digits n ;; int_of_int (d - 1)
    else
      zero <- int_of_int 0 ;;
      v <- int_div p n base ;;
      log_loop p fuel v base zero.

(** utility.hpp:110-115 at [T = Int] *)
Fixpoint gcd_loop (p : policy) (fuel : nat) (a b : Int) : outcome Int :=
  match fuel with
  | O => OutOfFuel
  | S f =>
      zero <- int_of_int 0 ;;
      if negb (int_eqb b zero)
      then r <- int_mod p a b ;; gcd_loop p f b r
      else Ok a
  end.

(** int.hpp:793-796, utility.hpp:102-118 *)
Definition int_gcd (p : policy) (fuel : nat) (a b : Int) : outcome Int :=
  gcd_loop p fuel (int_abs a) (int_abs b).

(** int.hpp:799-807 *)
Definition int_lcm (p : policy) (fuel : nat) (a b : Int) : outcome Int :=
  if is_zero a || is_zero b then int_of_int 0
  else
    m <- int_mul p a b ;;
    g <- int_gcd p fuel a b ;;
    int_div p (int_abs m) g.

(** ** Conversion to built-in integers *)

(** A built-in integer type: width in bits, signedness. *)
Record ctype : Type := CType { bits : Z; signed_ : bool }.

Definition ctype_min (t : ctype) : Z := if signed_ t then - 2 ^ (bits t - 1) else 0.
Definition ctype_max (t : ctype) : Z :=
  if signed_ t then 2 ^ (bits t - 1) - 1 else 2 ^ bits t - 1.

(** Conversion to type [t] (C++20: modulo 2^bits). *)
Definition conv (t : ctype) (z : Z) : Z :=
  if signed_ t then (z + 2 ^ (bits t - 1)) mod 2 ^ bits t - 2 ^ (bits t - 1)
  else z mod 2 ^ bits t.

(** Integral promotion: types narrower than [int] compute in [int]. *)
Definition promoted (t : ctype) : ctype := if bits t <? 32 then CType 32 true else t.

(** Result of an arithmetic operation performed in type [t]. *)
Definition carith (t : ctype) (z : Z) : outcome Z :=
  if signed_ t
  then if (ctype_min t <=? z) && (z <=? ctype_max t) then Ok z else UB SignedOverflow
  else Ok (z mod 2 ^ bits t).

(** int.hpp:683-686; [n] is [i + 1]. *)
Fixpoint to_integer_loop (t : ctype) (n : nat) (c : list Z) (result : Z) : outcome Z :=
  match n with
  | O => Ok result
  | S i =>
      m <- carith (promoted t) (result * BASE) ;;
      d <- vget c i ;;
      s <- carith (promoted t) (m + d) ;;
      to_integer_loop t i c (conv t s)
  end.

(** int.hpp:680-688 *)
Definition int_to_integer (t : ctype) (x : Int) : outcome Z :=
  r <- to_integer_loop t (length (chunks x)) (chunks x) 0 ;;
  m <- carith (promoted t) (r * sign x) ;;
  Ok (conv t m).

(** ** Random integers *)

(** int.hpp:815-847. The random source is an oracle: [limit] the draw of
    [digits_limit], [digit k] the k-th draw of [digit], [most] the draw of [most_digit]. *)
Definition int_random (limit : Z) (digit : nat -> Z) (most : Z) (digits : Z) : outcome Int :=
  if digits <? -1 then Throw BadRandomDigits
  else
    let n := Z.to_nat (if digits =? -1 then limit else Z.quot digits DIGITS_PER_CHUNK) in
    let c := map digit (seq 0 n) in
    let s := match c with [] => 0 | _ => 1 end in
    let c' := match c with
              | [] => c
              | _ => if last c 0 =? 0 then upd c (length c - 1) most else c
              end in
    Ok (MkInt s c').

(** ** Printing *)

(** [std::to_string(d)] / [os << d] for one digit cell (0..9 by the invariant). *)
Definition digit_char (d : Z) : ascii := ascii_of_N (Z.to_N (d + 48)).

(** int.hpp:854-874. Field width 1, fill '0', default (decimal) stream flags. *)
Definition int_print (x : Int) : list ascii :=
  if sign x =? 0 then ["0"%char]
  else (if sign x =? -1 then ["-"%char] else []) ++ map digit_char (rev (chunks x)).

(** ** Hash *)

(** int.hpp:894-904. [hs] and [hi] stand for [std::hash<signed char>] and
    [std::hash<int>]; [size_t] has 64 bits. *)
Definition int_hash (hs hi : Z -> Z) (x : Int) : Z :=
  fold_left (fun value d => Z.lxor value (Z.modulo (Z.shiftl (hi d) 1) (2 ^ 64)))
            (chunks x) (hs (sign x)).
